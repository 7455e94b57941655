(** * Proofs about the cart service *)
From Verif Require Export Cart_Spec.
From stdpp Require Export strings gmap numbers.
From stdpp Require Export list.
Set Default Proof Using "Type".
Open Scope list_scope.

(** ** The collection as a map *)
Definition uniq (l : db) : Prop := NoDup (ct_id <$> l).
Lemma find_one_Some c l d : find_one c l = Some d → d ∈ l ∧ ct_id d = c.
Proof.
  induction l as [|x l IH]; [done|]. simpl. destruct (String.eqb_spec (ct_id x) c); [intros [= ->]; set_solver|].
  intros H. apply IH in H. set_solver.
Qed.
Lemma find_one_None c l : find_one c l = None ↔ c ∉ ct_id <$> l.
Proof.
  induction l as [|x l IH]; simpl; [set_solver|]. destruct (String.eqb_spec (ct_id x) c); set_solver.
Qed.
Lemma replace_None c d l : replace_one c d l = None ↔ find_one c l = None.
Proof.
  induction l as [|x l IH]; [done|]. simpl. destruct (String.eqb (ct_id x) c); [done|]. by rewrite fmap_None.
Qed.
Lemma replace_find c d l l' c' :
  replace_one c d l = Some l' → ct_id d = c → find_one c' l' = if decide (c' = c) then Some d else find_one c' l.
Proof.
  revert l'. induction l as [|x l IH]; intros l'; [done|]. simpl.
  destruct (String.eqb_spec (ct_id x) c) as [E|E].
  - intros [= <-] Hd. simpl. destruct (String.eqb_spec (ct_id d) c').
    + rewrite decide_True by congruence. done.
    + rewrite decide_False by congruence. destruct (String.eqb_spec (ct_id x) c'); [congruence|done].
  - intros (l1&H&->)%fmap_Some Hd. simpl. destruct (String.eqb_spec (ct_id x) c').
    + by rewrite decide_False by congruence.
    + by apply IH.
Qed.
Lemma replace_ids c d l l' : replace_one c d l = Some l' → ct_id d = c → ct_id <$> l' = ct_id <$> l.
Proof.
  revert l'. induction l as [|x l IH]; intros l'; [done|]. simpl. destruct (String.eqb_spec (ct_id x) c) as [E|E].
  - intros [= <-] ?. simpl. congruence.
  - intros (l1&H&->)%fmap_Some Hd. simpl. f_equal. by apply IH.
Qed.
Lemma find_app c l l' : find_one c (l ++ l') = match find_one c l with Some d => Some d | None => find_one c l' end.
Proof. induction l as [|x l IH]; [done|]. simpl. by destruct (String.eqb (ct_id x) c). Qed.
Lemma upsert_find c d l c' :
  ct_id d = c → find_one c' (upsert c d l) = if decide (c' = c) then Some d else find_one c' l.
Proof.
  intros Hd. unfold upsert. destruct (replace_one c d l) as [l'|] eqn:E; [by eapply replace_find|].
  rewrite find_app. simpl. apply replace_None in E.
  destruct (decide (c' = c)) as [->|Hne].
  - rewrite E. by rewrite Hd, String.eqb_refl.
  - destruct (String.eqb_spec (ct_id d) c'); [congruence|]. by destruct (find_one c' l).
Qed.
Lemma upsert_uniq c d l : ct_id d = c → uniq l → uniq (upsert c d l).
Proof.
  intros Hd Hu. unfold upsert, uniq. destruct (replace_one c d l) as [l'|] eqn:E.
  - by rewrite (replace_ids _ _ _ _ E Hd).
  - rewrite fmap_app. apply NoDup_app. split_and!; [done| |apply NoDup_singleton].
    simpl. apply replace_None, find_one_None in E. set_solver.
Qed.
Lemma delete_one_ids c l : ct_id <$> delete_one c l ⊆ ct_id <$> l.
Proof. induction l as [|x l IH]; simpl; [done|]. destruct (String.eqb (ct_id x) c); set_solver. Qed.
Lemma delete_one_uniq c l : uniq l → uniq (delete_one c l).
Proof.
  unfold uniq. induction l as [|x l IH]; simpl; [done|]. intros [H1 H2]%NoDup_cons.
  destruct (String.eqb (ct_id x) c); [done|]. simpl. apply NoDup_cons. split; [|by apply IH].
  pose proof (delete_one_ids c l). set_solver.
Qed.
Lemma delete_one_find c l c' :
  uniq l → find_one c' (delete_one c l) = if decide (c' = c) then None else find_one c' l.
Proof.
  unfold uniq. induction l as [|x l IH]; simpl; [by destruct (decide _)|]. intros [H1 H2]%NoDup_cons.
  destruct (String.eqb_spec (ct_id x) c) as [E|E].
  - destruct (decide (c' = c)) as [->|].
    + rewrite E in H1. by apply find_one_None.
    + destruct (String.eqb_spec (ct_id x) c'); congruence.
  - simpl. destruct (String.eqb_spec (ct_id x) c').
    + by rewrite decide_False by congruence.
    + by apply IH.
Qed.
Lemma delete_many_find c l c' : find_one c' (delete_many c l) = if decide (c' = c) then None else find_one c' l.
Proof.
  unfold delete_many. induction l as [|x l IH]; [by destruct (decide _)|]. rewrite filter_cons.
  destruct (decide (ct_id x ≠ c)) as [E|E]; simpl.
  - destruct (String.eqb_spec (ct_id x) c'); [by rewrite decide_False by congruence|done].
  - rewrite IH. destruct (decide (c' = c)); [done|]. destruct (String.eqb_spec (ct_id x) c'); [|done].
    destruct (decide (ct_id x = c)); [congruence|done].
Qed.
Lemma delete_many_uniq c l : uniq l → uniq (delete_many c l).
Proof.
  unfold uniq, delete_many. induction l as [|x l IH]; [done|]. rewrite filter_cons. simpl. intros [H1 H2]%NoDup_cons.
  destruct (decide _); [|by apply IH]. simpl. apply NoDup_cons. split; [|by apply IH].
  intros (y&E&Hy)%elem_of_list_fmap. apply elem_of_list_filter in Hy as [_ Hy]. apply H1.
  rewrite E. by apply elem_of_list_fmap_1.
Qed.

(** What an operation does to the documents, as a map. *)
Definition op_cust (o : dbop) : string :=
  match o with FindOne c | Upsert c _ | ReplaceOne c _ | DeleteOne c | DeleteMany c => c end.
Definition op_doc (o : dbop) : option cart := match o with Upsert _ d | ReplaceOne _ d => Some d | _ => None end.
Definition proper (o : dbop) : Prop := ∀ d, op_doc o = Some d → ct_id d = op_cust o.
Definition eff (o : dbop) (x : option cart) : option cart :=
  match o with
  | FindOne _ => x
  | Upsert _ d => Some d
  | ReplaceOne _ d => match x with Some _ => Some d | None => None end
  | DeleteOne _ | DeleteMany _ => None end.
Definition answer (o : dbop) (x : option cart) : dbres := match o with FindOne _ => DCart x | _ => DDone end.
Lemma exec_uniq o l : proper o → uniq l → uniq (exec o l).1.
Proof.
  destruct o as [c|c d|c d|c|c]; simpl; intros Hp Hu; [done| | | |].
  - apply upsert_uniq; [by apply Hp|done].
  - destruct (replace_one c d l) as [l'|] eqn:E; simpl; [|done]. unfold uniq.
    rewrite (replace_ids _ _ _ _ E); [done|by apply Hp].
  - by apply delete_one_uniq.
  - by apply delete_many_uniq.
Qed.
Lemma exec_find o l c :
  proper o → uniq l →
  find_one c (exec o l).1 = if decide (c = op_cust o) then eff o (find_one c l) else find_one c l.
Proof.
  intros Hp Hu. destruct o as [c0|c0 d|c0 d|c0|c0]; simpl.
  - by destruct (decide _).
  - apply upsert_find. by apply Hp.
  - destruct (replace_one c0 d l) as [l'|] eqn:E; simpl.
    + rewrite (replace_find _ _ _ _ c E (Hp _ eq_refl)). destruct (decide _) as [->|]; [|done].
      destruct (find_one c0 l) eqn:E'; [done|]. apply (replace_None c0 d) in E'. congruence.
    + apply replace_None in E. destruct (decide _) as [->|]; [|done]. by rewrite E.
  - by apply delete_one_find.
  - apply delete_many_find.
Qed.
Lemma exec_answer o l : (exec o l).2 = answer o (find_one (op_cust o) l).
Proof. by destruct o. Qed.

(** ** Lists of items *)
Lemma find_item_elem i l x : find_item i l = Some x → x ∈ l ∧ it_id x = i.
Proof.
  induction l as [|y l IH]; [done|]. simpl. destruct (String.eqb_spec (it_id y) i); [intros [= ->]; set_solver|].
  intros H. apply IH in H. set_solver.
Qed.
Lemma find_item_None i l : find_item i l = None ↔ i ∉ ids l.
Proof. unfold ids. induction l as [|x l IH]; simpl; [set_solver|]. destruct (String.eqb_spec (it_id x) i); set_solver. Qed.
Lemma find_item_Some i l : is_Some (find_item i l) ↔ i ∈ ids l.
Proof.
  destruct (find_item i l) as [x|] eqn:E.
  - split; [|done]. intros _. apply find_item_elem in E as [H <-]. by apply elem_of_list_fmap_1.
  - apply find_item_None in E. split; [by intros []|done].
Qed.
Lemma elem_find_item l x : NoDup (ids l) → x ∈ l → find_item (it_id x) l = Some x.
Proof.
  unfold ids. induction l as [|y l IH]; [set_solver|]. simpl. intros [H1 H2]%NoDup_cons [->|H]%elem_of_cons.
  - by rewrite String.eqb_refl.
  - destruct (String.eqb_spec (it_id y) (it_id x)) as [E|]; [|by apply IH].
    rewrite E in H1. exfalso. apply H1. by apply elem_of_list_fmap_1.
Qed.
Lemma contents_lookup l i : contents l !! i = (λ x, (it_qty x, it_price x)) <$> find_item i l.
Proof.
  unfold contents. induction l as [|x l IH]; simpl; [apply lookup_empty|].
  destruct (String.eqb_spec (it_id x) i) as [<-|]; [exact (lookup_insert _ _ _)|].
  refine (eq_trans (lookup_insert_ne _ _ _ _ _) IH). done.
Qed.
Lemma find_item_app i l l' :
  find_item i (l ++ l') = match find_item i l with Some x => Some x | None => find_item i l' end.
Proof. induction l as [|x l IH]; [done|]. simpl. by destruct (String.eqb (it_id x) i). Qed.
Lemma set_item_ids i f l : (∀ x, it_id (f x) = it_id x) → ids (set_item i f l) = ids l.
Proof.
  intros Hf. unfold ids. induction l as [|x l IH]; [done|]. simpl. destruct (String.eqb _ _); simpl; [by rewrite Hf|].
  f_equal. exact IH.
Qed.
Lemma set_item_find i f l j :
  (∀ x, it_id (f x) = it_id x) →
  find_item j (set_item i f l) = if decide (j = i) then f <$> find_item j l else find_item j l.
Proof.
  intros Hf. induction l as [|x l IH]; simpl; [by destruct (decide _)|].
  destruct (String.eqb_spec (it_id x) i) as [E|E]; simpl.
  - rewrite Hf, E. destruct (String.eqb_spec i j) as [->|]; [by rewrite decide_True|by rewrite decide_False by congruence].
  - destruct (String.eqb_spec (it_id x) j); [by rewrite decide_False by congruence|done].
Qed.
Lemma remove_item_find i l j : find_item j (remove_item i l) = if decide (j = i) then None else find_item j l.
Proof.
  unfold remove_item. induction l as [|x l IH]; [by destruct (decide _)|]. rewrite filter_cons.
  destruct (decide (it_id x ≠ i)) as [E|E]; simpl.
  - destruct (String.eqb_spec (it_id x) j); [by rewrite decide_False by congruence|done].
  - rewrite IH. destruct (decide (j = i)); [done|]. destruct (String.eqb_spec (it_id x) j); [|done].
    destruct (decide (it_id x = i)); [congruence|done].
Qed.
Lemma remove_item_ids i l : ids (remove_item i l) = filter (λ j, j ≠ i) (ids l).
Proof.
  unfold ids, remove_item. induction l as [|x l IH]; [done|]. simpl. rewrite !filter_cons.
  destruct (decide (it_id x ≠ i)); simpl; [f_equal|]; exact IH.
Qed.
Lemma ids_reverse l : ids (reverse l) = reverse (ids l).
Proof. apply fmap_reverse. Qed.
Lemma last_with_ids i f l : (∀ x, it_id (f x) = it_id x) → ids (last_with i l f) = ids l.
Proof. intros Hf. unfold last_with. by rewrite ids_reverse, set_item_ids, ids_reverse, reverse_involutive. Qed.
Lemma find_item_perm i l l' : NoDup (ids l) → l ≡ₚ l' → find_item i l = find_item i l'.
Proof.
  intros Hn Hp. assert (NoDup (ids l')) as Hn' by (unfold ids; by rewrite <-Hp).
  destruct (find_item i l) as [x|] eqn:E.
  - apply find_item_elem in E as [H <-]. symmetry. apply elem_find_item; [done|]. by rewrite <-Hp.
  - symmetry. apply find_item_None. apply find_item_None in E. unfold ids in *. by rewrite <-Hp.
Qed.
Lemma last_with_find i f l j :
  (∀ x, it_id (f x) = it_id x) → NoDup (ids l) →
  find_item j (last_with i l f) = if decide (j = i) then f <$> find_item j l else find_item j l.
Proof.
  intros Hf Hn. unfold last_with.
  rewrite (find_item_perm _ _ (set_item i f (reverse l))); [|by rewrite ids_reverse, set_item_ids, ids_reverse, reverse_involutive|by rewrite reverse_Permutation].
  rewrite set_item_find by done.
  rewrite (find_item_perm j (reverse l) l); [done|rewrite ids_reverse; by rewrite reverse_Permutation|by rewrite reverse_Permutation].
Qed.

(** ** Merging *)
Definition bump (x y : item) : item := set_price (it_price x) (plus_qty (it_qty x) y).
Lemma bump_id x y : it_id (bump x y) = it_id y.
Proof. done. Qed.
Lemma merge_late session old cur :
  merge_loop session old (Some cur) = cur ++ filter (λ x, it_id x ∉ ids old) session.
Proof.
  revert old cur. induction session as [|x r IH]; intros old cur; simpl; [by rewrite app_nil_r|].
  destruct (find_item (it_id x) old) as [y|] eqn:E.
  - rewrite IH, last_with_ids by done. rewrite filter_cons_False; [done|].
    intros H. by apply find_item_None in H; rewrite H in E.
  - rewrite IH. apply find_item_None in E. by rewrite filter_cons_True, <-app_assoc.
Qed.
(** The items that both have and that come before the first new one. *)
Fixpoint early (session old : list item) : list item :=
  match session with
  | x :: r => if decide (it_id x ∈ ids old) then x :: early r old else []
  | [] => [] end.
Fixpoint bumps (xs old : list item) : list item :=
  match xs with x :: r => bumps r (last_with (it_id x) old (bump x)) | [] => old end.
Lemma bumps_ids xs old : ids (bumps xs old) = ids old.
Proof. revert old. induction xs as [|x r IH]; intros old; simpl; [done|]. by rewrite IH, last_with_ids. Qed.
Lemma early_ids session old old' : ids old = ids old' → early session old = early session old'.
Proof. intros E. induction session as [|x r IH]; simpl; [done|]. rewrite E, IH. done. Qed.
Lemma merge_early session old :
  merge_loop session old None = bumps (early session old) old ++ filter (λ x, it_id x ∉ ids old) session.
Proof.
  revert old. induction session as [|x r IH]; intros old; simpl; [by rewrite app_nil_r|].
  destruct (find_item (it_id x) old) as [y|] eqn:E.
  - assert (it_id x ∈ ids old) as H by (apply find_item_Some; eauto).
    rewrite decide_True by done. rewrite IH, last_with_ids by done. rewrite filter_cons_False by (intros H'; by apply H').
    simpl. f_equal. f_equal. apply early_ids. by rewrite last_with_ids.
  - apply find_item_None in E. rewrite decide_False by done. simpl. rewrite merge_late.
    by rewrite filter_cons_True, <-app_assoc.
Qed.
Lemma bumps_find xs old j :
  NoDup (ids old) → NoDup (ids xs) →
  find_item j (bumps xs old) =
  match find_item j xs with Some x => bump x <$> find_item j old | None => find_item j old end.
Proof.
  revert old. induction xs as [|x r IH]; intros old Ho Hx; simpl; [done|].
  unfold ids in Hx. simpl in Hx. apply NoDup_cons in Hx as [Hx1 Hx2].
  rewrite IH; [|by rewrite last_with_ids|done]. rewrite last_with_find by done.
  destruct (String.eqb_spec (it_id x) j) as [<-|Hne].
  - rewrite decide_True by done. rewrite (proj2 (find_item_None (it_id x) r)); done.
  - rewrite decide_False by congruence. done.
Qed.
Lemma find_filter (P : item → Prop) `{∀ x, Decision (P x)} j l :
  NoDup (ids l) → find_item j (filter P l) = match find_item j l with Some x => if decide (P x) then Some x else None | None => None end.
Proof.
  unfold ids. induction l as [|x l IH]; [done|]. simpl. intros [H1 H2]%NoDup_cons. rewrite filter_cons.
  destruct (decide (P x)) as [HP|HP]; simpl.
  - destruct (String.eqb_spec (it_id x) j); [by rewrite decide_True|by apply IH].
  - rewrite IH by done. destruct (String.eqb_spec (it_id x) j) as [<-|]; [|done].
    rewrite (proj2 (find_item_None (it_id x) l)) by done. by rewrite decide_False.
Qed.
Lemma early_prefix session old : early session old `prefix_of` session.
Proof.
  induction session as [|x r IH]; simpl; [done|]. destruct (decide _); [by apply prefix_cons|apply prefix_nil].
Qed.
Lemma early_nodup session old : NoDup (ids session) → NoDup (ids (early session old)).
Proof.
  intros H. destruct (early_prefix session old) as [k E]. unfold ids in *. rewrite E, fmap_app in H.
  by apply NoDup_app in H as (H&_&_).
Qed.
Lemma find_early session old j x :
  NoDup (ids session) → find_item j (early session old) = Some x → find_item j session = Some x.
Proof.
  intros Hn Hj. destruct (early_prefix session old) as [k E]. rewrite E, find_item_app. by rewrite Hj.
Qed.
(** A merged cart, item by item. *)
Lemma merge_find session old j :
  NoDup (ids session) → NoDup (ids old) →
  find_item j (merge_loop session old None) =
  match find_item j old, find_item j session with
  | None, y => y
  | Some x, None => Some x
  | Some x, Some y => Some (if find_item j (early session old) then bump y x else x) end.
Proof.
  intros Hs Ho. rewrite merge_early, find_item_app, bumps_find; [|done|by apply early_nodup].
  rewrite find_filter by done.
  destruct (find_item j old) as [x|] eqn:Ex.
  - destruct (find_item j (early session old)) as [y|] eqn:Ey.
    + rewrite (find_early _ _ _ _ Hs Ey). done.
    + simpl. by destruct (find_item j session).
  - destruct (find_item j (early session old)) as [y|] eqn:Ey; simpl.
    + rewrite (find_early _ _ _ _ Hs Ey). apply find_early in Ey; [|done]. apply find_item_elem in Ey as [_ E].
      apply find_item_None in Ex. rewrite decide_True; congruence.
    + destruct (find_item j session) as [y|] eqn:Ey'; [|done]. apply find_item_elem in Ey' as [_ E].
      apply find_item_None in Ex. rewrite decide_True; congruence.
Qed.
Lemma merge_nodup session old :
  NoDup (ids session) → NoDup (ids old) → NoDup (ids (merge_loop session old None)).
Proof.
  intros Hs Ho. rewrite merge_early. unfold ids at 1. rewrite fmap_app. fold (ids (bumps (early session old) old)).
  rewrite bumps_ids. apply NoDup_app. split_and!; [done| |].
  - intros i Hi (x&->&Hx)%elem_of_list_fmap. apply elem_of_list_filter in Hx as [Hx _]. done.
  - clear Ho. unfold ids in *. induction session as [|x r IH]; [done|]. simpl in Hs. apply NoDup_cons in Hs as [H1 H2].
    rewrite filter_cons. destruct (decide _); [|by apply IH]. simpl. apply NoDup_cons. split; [|by apply IH].
    intros (y&E&Hy)%elem_of_list_fmap. apply elem_of_list_filter in Hy as [_ Hy]. apply H1. rewrite E. by apply elem_of_list_fmap_1.
Qed.

(** ** Programs that only touch some customers' carts, and keep [G] *)
Inductive ok (S : list string) (G : cart → Prop) : prog → Prop :=
| ok_ret r : ok S G (Ret r)
| ok_do o k :
    op_cust o ∈ S → proper o → (∀ d, op_doc o = Some d → G d) →
    (∀ r, (∀ d, r = DCart (Some d) → G d) → ok S G (k r)) → ok S G (Do o k).
Definition all_docs (G : cart → Prop) (l : db) : Prop := ∀ c d, find_one c l = Some d → G d.

Lemma exec_docs (G : cart → Prop) o l :
  proper o → uniq l → (∀ d, op_doc o = Some d → G d) → all_docs G l → all_docs G (exec o l).1.
Proof.
  intros Hp Hu Hd HG c d. rewrite exec_find by done. destruct (decide _) as [->|]; [|by apply HG].
  destruct o as [c0|c0 d0|c0 d0|c0|c0]; simpl in *; [by apply HG| | |done|done].
  - intros [= <-]. by apply Hd.
  - destruct (find_one c0 l); [|done]. intros [= <-]. by apply Hd.
Qed.
Lemma exec_res (G : cart → Prop) o l d : all_docs G l → (exec o l).2 = DCart (Some d) → G d.
Proof. intros HG. rewrite exec_answer. destruct o; simpl; [|done..]. intros [= E]. by eapply HG. Qed.
Lemma exec_f_uniq f o l : proper o → uniq l → uniq (exec_f f o l).1.
Proof. intros. destruct f; simpl; [|done|]; by apply exec_uniq. Qed.
Lemma exec_f_docs (G : cart → Prop) f o l :
  proper o → uniq l → (∀ d, op_doc o = Some d → G d) → all_docs G l → all_docs G (exec_f f o l).1.
Proof. intros. destruct f; simpl; [|done|]; by apply exec_docs. Qed.
Lemma exec_f_res (G : cart → Prop) f o l d : all_docs G l → (exec_f f o l).2 = DCart (Some d) → G d.
Proof. intros HG. destruct f; simpl; [by apply exec_res|done|done]. Qed.

Lemma run_ok S G p l :
  ok S G p → uniq l → all_docs G l →
  uniq (run p l).1 ∧ all_docs G (run p l).1 ∧ ∀ c, c ∉ S → find_one c (run p l).1 = find_one c l.
Proof.
  intros H. revert l. induction H as [r|o k Ho Hp Hd _ IH]; intros l Hu HG; [done|]. simpl.
  destruct (exec o l) as [l' r] eqn:E.
  destruct (IH r) with (l := l') as (H1&H2&H3).
  - intros d Er. eapply exec_res; [done|]. rewrite E. done.
  - change l' with (l', r).1. rewrite <-E. by apply exec_uniq.
  - change l' with (l', r).1. rewrite <-E. by apply exec_docs.
  - split_and!; [done..|]. intros c Hc. rewrite H3 by done. change l' with (l', r).1.
    rewrite <-E, exec_find by done. rewrite decide_False; [done|congruence].
Qed.
(** What a program does depends only on those carts. *)
Lemma run_local S G p l l' :
  ok S G p → uniq l → uniq l' → all_docs G l → (∀ c, c ∈ S → find_one c l = find_one c l') →
  (run p l).2 = (run p l').2 ∧ ∀ c, c ∈ S → find_one c (run p l).1 = find_one c (run p l').1.
Proof.
  intros H. revert l l'. induction H as [r|o k Ho Hp Hd _ IH]; intros l l' Hu Hu' HG Hl; [done|]. simpl.
  assert ((exec o l).2 = (exec o l').2) as Er by by rewrite !exec_answer, Hl.
  pose proof (exec_uniq o l Hp Hu). pose proof (exec_uniq o l' Hp Hu').
  pose proof (exec_docs G o l Hp Hu Hd HG).
  assert (∀ c, c ∈ S → find_one c (exec o l).1 = find_one c (exec o l').1) as Hf.
  { intros c Hc. rewrite !exec_find by done. by rewrite Hl. }
  pose proof (λ d, exec_res G o l d HG) as Hres.
  destruct (exec o l) as [l1 r1], (exec o l') as [l1' r1']. simpl in *. subst r1'. by apply IH.
Qed.

(** ** The calls *)
Definition fine (P : item → Prop) (d : cart) : Prop :=
  NoDup (ids (ct_items d)) ∧ ct_items d ≠ [] ∧ Forall P (ct_items d).
Definition closed (P : item → Prop) : Prop := ∀ x y, P x → P y → P (bump x y) ∧ P (plus_qty (it_qty x) y).
Definition fine_call (P : item → Prop) (a : call) : Prop :=
  match a with
  | AddItem c i => P i
  | UpdateItem c i => (0 < it_qty i)%Z → P i
  | _ => True end.
Lemma set_item_forall (P : item → Prop) i f l :
  (∀ x, it_id x = i → P x → P (f x)) → Forall P l → Forall P (set_item i f l).
Proof.
  intros Hf. induction 1 as [|x l Hx Hl IH]; simpl; [done|].
  destruct (String.eqb_spec (it_id x) i); constructor; auto.
Qed.
Lemma set_item_nil i f l : set_item i f l = [] → l = [].
Proof. destruct l as [|x l]; [done|]. simpl. by destruct (String.eqb _ _). Qed.
Lemma bumps_forall P xs old : closed P → Forall P xs → Forall P old → Forall P (bumps xs old).
Proof.
  intros HP Hx. revert old. induction Hx as [|x xs Hx _ IH]; intros old Ho; simpl; [done|].
  apply IH. unfold last_with. apply Forall_reverse, set_item_forall; [|by apply Forall_reverse].
  intros y _ Hy. by apply HP.
Qed.
Lemma merge_forall P session old :
  closed P → Forall P session → Forall P old → Forall P (merge_loop session old None).
Proof.
  intros HP Hs Ho. rewrite merge_early. apply Forall_app. split.
  - apply bumps_forall; [done| |done]. destruct (early_prefix session old) as [k E]. rewrite E in Hs.
    by apply Forall_app in Hs as [Hs _].
  - apply Forall_forall. intros x [_ Hx]%elem_of_list_filter. by eapply Forall_forall in Hs.
Qed.
Lemma merge_nil session old : merge_loop session old None = [] → session = [].
Proof.
  rewrite merge_early. intros [E1 E2]%app_eq_nil.
  assert (old = []) as ->.
  { pose proof (bumps_ids (early session old) old) as H. rewrite E1 in H. by destruct old. }
  destruct session as [|x r]; [done|]. rewrite filter_cons_True in E2; [done|set_solver].
Qed.
Lemma app_single_nodup (l : list item) i : NoDup (ids l) → find_item (it_id i) l = None → NoDup (ids (l ++ [i])).
Proof.
  intros Hn Hi%find_item_None. unfold ids. rewrite fmap_app. apply NoDup_app. split_and!; [done| |apply NoDup_singleton].
  simpl. intros j Hj ->%elem_of_list_singleton. done.
Qed.

Definition state_ok (P : item → Prop) (l : list item) : Prop := NoDup (ids l) ∧ Forall P l.
Lemma get_cart_ok S P c k :
  c ∈ S → (∀ l, state_ok P l → ok S (fine P) (k l)) → ok S (fine P) (get_cart c k).
Proof.
  intros Hc Hk. apply ok_do; [done|done|done|]. intros [|[d|]|] Hr; [apply ok_ret| | |apply ok_ret].
  - apply Hk. destruct (Hr d eq_refl) as (?&_&?). done.
  - apply Hk. split; [apply NoDup_nil_2|done].
Qed.
Lemma finish_ok S P o r :
  op_cust o ∈ S → proper o → (∀ d, op_doc o = Some d → fine P d) → ok S (fine P) (finish o r).
Proof. intros. apply ok_do; [done..|]. intros [] _; apply ok_ret. Qed.
Lemma finish_doc_ok S P (mk : string → cart → dbop) c l r :
  (∀ c d, op_cust (mk c d) = c ∧ op_doc (mk c d) = Some d) →
  c ∈ S → state_ok P l → l ≠ [] → ok S (fine P) (finish (mk c (Cart c l)) r).
Proof.
  intros Hmk Hc [H1 H2] Hl. destruct (Hmk c (Cart c l)) as [E1 E2]. apply finish_ok.
  - by rewrite E1.
  - intros d. rewrite E2, E1. by intros [= <-].
  - intros d. rewrite E2. by intros [= <-].
Qed.
Lemma prog_ok P a : closed P → fine_call P a → ok (customers a) (fine P) (prog_of a).
Proof.
  intros HP Ha. destruct a as [c|c|c s|c i|c i|c i|c i]; simpl in *.
  - apply get_cart_ok; [set_solver|]. intros. apply ok_ret.
  - apply finish_ok; [set_solver|done|done].
  - apply get_cart_ok; [set_solver|]. intros ls [Hs1 Hs2]. apply get_cart_ok; [set_solver|]. intros lc [Hc1 Hc2].
    destruct ls as [|x r]; [apply ok_ret|]. apply ok_do.
    + simpl. set_solver.
    + intros d. simpl. by intros [= <-].
    + intros d. simpl op_doc. intros [= <-]. split_and!; simpl ct_items.
      * exact (merge_nodup (x :: r) lc Hs1 Hc1).
      * intros E. by apply (merge_nil (x :: r) lc) in E.
      * exact (merge_forall P (x :: r) lc HP Hs2 Hc2).
    + intros [] _; [apply ok_ret| |]; (apply finish_ok; [simpl; set_solver|done|done]).
  - apply get_cart_ok; [set_solver|]. intros. apply ok_ret.
  - apply get_cart_ok; [set_solver|]. intros l [H1 H2]. destruct (find_item (it_id i) l) as [x|] eqn:E; simpl.
    + apply (finish_doc_ok _ _ Upsert); [done|set_solver| |].
      * split; [by rewrite set_item_ids|]. apply set_item_forall; [|done]. intros y _ Hy. by apply HP.
      * intros ->%set_item_nil. done.
    + apply (finish_doc_ok _ _ Upsert); [done|set_solver| |by destruct l].
      split; [by apply app_single_nodup|]. apply Forall_app. auto.
  - apply get_cart_ok; [set_solver|]. intros l [H1 H2]. destruct (find_item i l) as [x|] eqn:E; [|apply ok_ret].
    destruct (remove_item i l) as [|y r] eqn:Er; [apply finish_ok; [simpl; set_solver|done|done]|].
    apply (finish_doc_ok _ _ ReplaceOne); [done|set_solver| |done]. rewrite <-Er. split.
    + rewrite remove_item_ids. by apply NoDup_filter.
    + apply Forall_forall. intros z [_ Hz]%elem_of_list_filter. by eapply Forall_forall in H2.
  - apply get_cart_ok; [set_solver|]. intros l [H1 H2]. destruct (find_item (it_id i) l) as [x|] eqn:E.
    + set (l1 := set_item _ _ l). set (l2 := if decide (it_qty i <= 0)%Z then remove_item (it_id i) l1 else l1).
      assert (NoDup (ids l1)) as H3 by by (unfold l1; rewrite set_item_ids).
      assert (state_ok P l2) as H4.
      { unfold l2. destruct (decide _) as [Hq|Hq].
        - split; [rewrite remove_item_ids; by apply NoDup_filter|]. apply Forall_forall.
          intros z Hz. unfold remove_item in Hz. apply elem_of_list_filter in Hz as [Hz1 Hz2].
          assert (Forall (λ z, it_id z ≠ it_id i → P z) l1) as HF.
          { unfold l1. apply set_item_forall; [simpl; congruence|]. eapply Forall_impl; [done|auto]. }
          eapply Forall_forall in HF; [|done]. auto.
        - split; [done|]. unfold l1. apply set_item_forall; [|done]. intros z Ez _.
          assert (P i) by (apply Ha; lia). by destruct i, z; simpl in *; subst. }
      change (ok [c] (fine P) (match l2 with [] => p_delete c | _ => finish (Upsert c (Cart c l2)) ROk end)).
      clearbody l2. destruct l2 as [|y r]; [apply finish_ok; [simpl; set_solver|done|done]|].
      apply (finish_doc_ok _ _ Upsert); [done|set_solver|done|done].
    + destruct (decide _) as [Hq|Hq]; [apply ok_ret|].
      apply (finish_doc_ok _ _ Upsert); [done|set_solver| |by destruct l].
      split; [by apply app_single_nodup|]. apply Forall_app. split; [done|]. constructor; [|done]. apply Ha. lia.
Qed.

(** ** What a call does, on its own *)
Definition items (l : db) (c : string) : list item :=
  match find_one c l with Some d => ct_items d | None => [] end.
Lemma shown_items l c : shown l c = items l c.
Proof. unfold shown, items. simpl. by destruct (find_one c l). Qed.
Definition any : item → Prop := λ _, True.
Definition good (l : db) : Prop := uniq l ∧ all_docs (fine any) l.
Lemma any_closed : closed any.
Proof. done. Qed.
Lemma any_call a : fine_call any a.
Proof. by destruct a. Qed.
Lemma good_nil : good [].
Proof. split; [apply NoDup_nil_2|done]. Qed.
Lemma good_run a l : good l → good (run (prog_of a) l).1.
Proof.
  intros [H1 H2]. destruct (run_ok (customers a) (fine any) (prog_of a) l) as (?&?&?); [|done..].
  apply prog_ok; [done|apply any_call].
Qed.
Lemma good_items l c : good l → NoDup (ids (items l c)).
Proof.
  intros [_ H]. unfold items. destruct (find_one c l) as [d|] eqn:E; [|apply NoDup_nil_2]. by destruct (H c d E).
Qed.
Lemma run_get c k l : run (get_cart c k) l = run (k (items l c)) l.
Proof. unfold get_cart, items. simpl. by destruct (find_one c l). Qed.
Lemma run_finish o r l : run (finish o r) l = ((exec o l).1, r).
Proof. unfold finish. simpl. destruct o; done. Qed.
Lemma items_exec o l c :
  proper o → uniq l →
  items (exec o l).1 c = if decide (c = op_cust o)
                         then match eff o (find_one c l) with Some d => ct_items d | None => [] end else items l c.
Proof. intros Hp Hu. unfold items at 1. rewrite exec_find by done. by destruct (decide _). Qed.
Lemma items_upsert c is l c' :
  uniq l → items (exec (Upsert c (Cart c is)) l).1 c' = if decide (c' = c) then is else items l c'.
Proof. intros Hu. rewrite items_exec; [by destruct (decide _)|by intros d [= <-]|done]. Qed.
Lemma items_delete_many c l c' :
  uniq l → items (exec (DeleteMany c) l).1 c' = if decide (c' = c) then [] else items l c'.
Proof. intros Hu. rewrite items_exec; [by destruct (decide _)|done|done]. Qed.
Lemma items_delete_one c l c' :
  uniq l → items (exec (DeleteOne c) l).1 c' = if decide (c' = c) then [] else items l c'.
Proof. intros Hu. rewrite items_exec; [by destruct (decide _)|done|done]. Qed.
Lemma items_replace c is l c' :
  uniq l → items l c ≠ [] →
  items (exec (ReplaceOne c (Cart c is)) l).1 c' = if decide (c' = c) then is else items l c'.
Proof.
  intros Hu Hne. rewrite items_exec; [|by intros d [= <-]|done]. simpl op_cust. destruct (decide _) as [->|]; [|done].
  unfold items in Hne. simpl. by destruct (find_one c l).
Qed.
(** The items each customer has after a call, and its answer. *)
Definition after (a : call) (l : db) (c' : string) : list item :=
  match a with
  | GetCart _ | GetItem _ _ => items l c'
  | DeleteCart c => if decide (c' = c) then [] else items l c'
  | AddItem c i =>
      if decide (c' = c) then match find_item (it_id i) (items l c) with
                              | Some _ => set_item (it_id i) (plus_qty (it_qty i)) (items l c)
                              | None => items l c ++ [i] end else items l c'
  | RemoveItem c i => if decide (c' = c) then remove_item i (items l c) else items l c'
  | UpdateItem c i =>
      if decide (c' = c) then
        if decide (it_qty i <= 0)%Z then remove_item (it_id i) (items l c)
        else match find_item (it_id i) (items l c) with
             | Some _ => set_item (it_id i) (λ x, Item (it_id x) (it_qty i) (it_price i)) (items l c)
             | None => items l c ++ [i] end
      else items l c'
  | MergeCarts c s =>
      if decide (c' = s) then [] else
      if decide (c' = c) then merge_loop (items l s) (items l c) None else items l c' end.
Definition answers (a : call) (l : db) : reply :=
  match a with
  | GetCart c => RItems (items l c)
  | GetItem c i => RItem (default (Item "" 0 0) (find_item i (items l c)))
  | AddItem c i => RItem (default i (plus_qty (it_qty i) <$> find_item (it_id i) (items l c)))
  | _ => ROk end.
Lemma remove_absent i l : find_item i l = None → remove_item i l = l.
Proof.
  intros H%find_item_None. unfold remove_item. induction l as [|x l IH]; [done|]. unfold ids in H. simpl in H.
  rewrite filter_cons_True by set_solver. f_equal. apply IH. set_solver.
Qed.
Lemma remove_set i f l : (∀ x, it_id (f x) = it_id x) → remove_item i (set_item i f l) = remove_item i l.
Proof.
  intros Hf. unfold remove_item. induction l as [|x l IH]; [done|]. simpl. destruct (String.eqb_spec (it_id x) i) as [E|E].
  - rewrite !filter_cons_False; [done|rewrite E; auto|rewrite Hf, E; auto].
  - by rewrite !filter_cons_True, IH.
Qed.
Lemma merge_nothing old : merge_loop [] old None = old.
Proof. done. Qed.
Lemma run_after a l c' :
  uniq l → items (run (prog_of a) l).1 c' = after a l c' ∧ (run (prog_of a) l).2 = answers a l.
Proof.
  intros Hu. destruct a as [c|c|c s|c i|c i|c i|c i]; unfold prog_of, after, answers.
  - unfold p_get. by rewrite run_get.
  - unfold p_delete. rewrite run_finish. cbn [fst snd]. by rewrite items_delete_many.
  - unfold p_merge. rewrite !run_get. destruct (items l s) as [|x r] eqn:Es.
    + simpl. split; [|done]. destruct (decide (c' = s)) as [->|]; [done|]. by destruct (decide (c' = c)) as [->|].
    + set (m := merge_loop (x :: r) (items l c) None).
      assert (run (Do (Upsert c (Cart c m)) (λ r, match r with DErr => Ret RErr | _ => finish (DeleteOne s) ROk end)) l
              = ((exec (DeleteOne s) (exec (Upsert c (Cart c m)) l).1).1, ROk)) as -> by done.
      cbn [fst snd]. split; [|done]. rewrite items_delete_one.
      * destruct (decide (c' = s)); [done|]. by rewrite items_upsert.
      * apply exec_uniq; [by intros d [= <-]|done].
  - unfold p_item. by rewrite run_get.
  - unfold p_add. rewrite run_get. destruct (find_item (it_id i) (items l c)) as [x|] eqn:E; rewrite run_finish.
    + cbn [fst snd]. by rewrite items_upsert.
    + cbn [fst snd]. by rewrite items_upsert.
  - unfold p_remove. rewrite run_get. destruct (find_item i (items l c)) as [x|] eqn:E.
    + destruct (remove_item i (items l c)) as [|y r] eqn:Er.
      * unfold p_delete. rewrite run_finish. cbn [fst snd]. by rewrite items_delete_many.
      * rewrite run_finish. cbn [fst snd]. split; [|done]. rewrite items_replace; [by destruct (decide _)|done|].
        intros E'. by rewrite E' in Er.
    + simpl. split; [|done]. destruct (decide (c' = c)) as [->|]; [|done]. by rewrite remove_absent.
  - unfold p_update. rewrite run_get. destruct (find_item (it_id i) (items l c)) as [x|] eqn:E.
    + set (l1 := set_item _ _ (items l c)).
      set (l2 := if decide (it_qty i <= 0)%Z then remove_item (it_id i) l1 else l1).
      assert ((if decide (it_qty i <= 0)%Z then remove_item (it_id i) (items l c) else l1) = l2) as ->.
      { unfold l2. destruct (decide _); [|done]. unfold l1. by rewrite remove_set. }
      change (items (run (match l2 with [] => p_delete c | _ => finish (Upsert c (Cart c l2)) ROk end) l).1 c' =
              (if decide (c' = c) then l2 else items l c') ∧
              (run (match l2 with [] => p_delete c | _ => finish (Upsert c (Cart c l2)) ROk end) l).2 = ROk).
      clearbody l2. destruct l2 as [|y r].
      * unfold p_delete. rewrite run_finish. cbn [fst snd]. by rewrite items_delete_many.
      * rewrite run_finish. cbn [fst snd]. by rewrite items_upsert.
    + destruct (decide (it_qty i <= 0)%Z).
      * simpl. split; [|done]. destruct (decide (c' = c)) as [->|]; [|done]. by rewrite remove_absent.
      * rewrite run_finish. cbn [fst snd]. by rewrite items_upsert.
Qed.

(** ** Sequences *)
Definition view (l : db) : shop := λ c, contents (items l c).
Lemma contents_empty l : contents l = ∅ ↔ l = [].
Proof.
  split; [|by intros ->]. destruct l as [|x l]; [done|]. intros H.
  assert (contents (x :: l) !! it_id x = None) as H' by by rewrite H. rewrite contents_lookup in H'. simpl in H'.
  by rewrite String.eqb_refl in H'.
Qed.
(** Every item both have comes early. *)
Lemma orderly_early session old :
  (∀ pre x mid y post, session = pre ++ x :: mid ++ y :: post → it_id y ∈ ids old → it_id x ∈ ids old) →
  ∀ y, y ∈ session → it_id y ∈ ids old → y ∈ early session old.
Proof.
  induction session as [|x r IH]; intros H y Hy Hi; [set_solver|]. simpl. apply elem_of_cons in Hy as [->|Hy].
  - rewrite decide_True by done. set_solver.
  - rewrite decide_True.
    + apply elem_of_list_further. apply IH; [|done|done]. intros pre x' mid y' post E. apply (H (x :: pre) x' mid y' post).
      by rewrite E.
    + destruct (elem_of_list_split _ _ Hy) as (m&post&->). by apply (H [] x m y post).
Qed.
Lemma merge_contents session old :
  NoDup (ids session) → NoDup (ids old) →
  (∀ pre x mid y post, session = pre ++ x :: mid ++ y :: post → it_id y ∈ ids old → it_id x ∈ ids old) →
  contents (merge_loop session old None) =
  union_with (λ x y, Some (x.1 + y.1, y.2)%Z) (contents old) (contents session).
Proof.
  intros Hs Ho Hord. apply map_eq. intros j. rewrite lookup_union_with, !contents_lookup, merge_find by done.
  destruct (find_item j old) as [x|] eqn:Ex; simpl; [|by destruct (find_item j session)].
  destruct (find_item j session) as [y|] eqn:Ey; simpl; [|done].
  apply find_item_elem in Ey as [Ey1 Ey2]. apply find_item_elem in Ex as [Ex1 Ex2].
  assert (y ∈ early session old) as He.
  { apply orderly_early; [done|done|]. rewrite Ey2, <-Ex2. by apply elem_of_list_fmap_1. }
  assert (is_Some (find_item j (early session old))) as [z ->].
  { apply find_item_Some. rewrite <-Ey2. by apply elem_of_list_fmap_1. }
  done.
Qed.
Lemma contents_set i f l :
  (∀ x, it_id (f x) = it_id x) → i ∈ ids l →
  ∃ x, find_item i l = Some x ∧ contents (set_item i f l) = <[i := (it_qty (f x), it_price (f x))]> (contents l).
Proof.
  intros Hf Hi. apply find_item_Some in Hi as [x Hx]. exists x. split; [done|]. apply map_eq. intros j.
  rewrite contents_lookup, set_item_find by done. destruct (decide (j = i)) as [->|].
  - rewrite lookup_insert, Hx. done.
  - rewrite lookup_insert_ne, contents_lookup by done. done.
Qed.
Lemma contents_app l i :
  find_item (it_id i) l = None → contents (l ++ [i]) = <[it_id i := (it_qty i, it_price i)]> (contents l).
Proof.
  intros Hi. apply map_eq. intros j. rewrite contents_lookup, find_item_app. destruct (decide (j = it_id i)) as [->|].
  - rewrite lookup_insert, Hi. simpl. by rewrite String.eqb_refl.
  - rewrite lookup_insert_ne, contents_lookup by done. simpl. destruct (find_item j l); [done|].
    destruct (String.eqb_spec (it_id i) j); congruence.
Qed.
Lemma contents_remove i l : contents (remove_item i l) = delete i (contents l).
Proof.
  apply map_eq. intros j. rewrite contents_lookup, remove_item_find. destruct (decide (j = i)) as [->|].
  - by rewrite lookup_delete.
  - by rewrite lookup_delete_ne, contents_lookup by done.
Qed.
Lemma after_spec a l c' :
  good l → orderly l a → contents (after a l c') = spec_step a (view l) c'.
Proof.
  intros Hg Ho. destruct a as [c|c|c s|c i|c i|c i|c i]; simpl; unfold upd, view; try done.
  - by destruct (decide _).
  - destruct Ho as [_ Ho]. destruct (decide (c' = s)); [done|]. destruct (decide (c' = c)) as [->|]; [|done].
    rewrite !shown_items in Ho. apply merge_contents; [by apply good_items..|done].
  - destruct (decide (c' = c)) as [->|]; [|done]. rewrite contents_lookup.
    destruct (find_item (it_id i) (items l c)) as [x|] eqn:E; simpl.
    + destruct (contents_set (it_id i) (plus_qty (it_qty i)) (items l c)) as (y&Hy&->); [done|apply find_item_Some; eauto|].
      by simplify_eq.
    + by apply contents_app.
  - destruct (decide (c' = c)) as [->|]; [|done]. apply contents_remove.
  - destruct (decide (c' = c)) as [->|]; [|done]. destruct (decide _); [apply contents_remove|].
    destruct (find_item (it_id i) (items l c)) as [x|] eqn:E.
    + edestruct (contents_set (it_id i)) as (y&Hy&->); [|apply find_item_Some; eauto|]; done.
    + by apply contents_app.
Qed.
Lemma answers_spec a l : good l → spec_reply a (view l) (answers a l).
Proof.
  intros Hg. destruct a as [c|c|c s|c i|c i|c i|c i]; simpl; try done.
  - exists (items l c). split_and!; [done|by apply good_items|done].
  - unfold view. rewrite contents_lookup. destruct (find_item i (items l c)) as [x|] eqn:E; simpl; [|done].
    apply find_item_elem in E as [_ <-]. by destruct x.
  - unfold upd, view. rewrite decide_True by done. rewrite lookup_insert, contents_lookup.
    destruct (find_item (it_id i) (items l c)) as [x|] eqn:E; simpl.
    + apply find_item_elem in E as [_ E]. exists (it_qty x + it_qty i)%Z, (it_price x). split; [|done].
      unfold plus_qty. by rewrite E.
    + exists (it_qty i), (it_price i). by destruct i.
Qed.
Lemma spec_step_ext a σ σ' : (∀ c, σ c = σ' c) → ∀ c, spec_step a σ c = spec_step a σ' c.
Proof. intros H c. destruct a; simpl; unfold upd; rewrite ?H; repeat destruct (decide _); rewrite ?H; done. Qed.
Lemma spec_reply_ext a σ σ' r : (∀ c, σ c = σ' c) → spec_reply a σ r → spec_reply a σ' r.
Proof.
  intros H. destruct a; simpl; try done.
  - by rewrite H.
  - by rewrite H.
  - intros (q&p&E&E'). exists q, p. split; [done|]. rewrite <-E'. unfold upd. by rewrite !decide_True, !H by done.
Qed.
Lemma explains_ext cs σ σ' rs : (∀ c, σ c = σ' c) → explains cs σ rs → explains cs σ' rs.
Proof.
  revert σ σ' rs. induction cs as [|a cs IH]; intros σ σ' [|r rs] H; simpl; try done. intros [H1 H2]. split.
  - by eapply spec_reply_ext.
  - eapply IH; [|done]. by apply spec_step_ext.
Qed.
Lemma explains_run cs l :
  good l → all_orderly cs l → explains cs (view l) (run_calls cs l).2.
Proof.
  revert l. induction cs as [|a cs IH]; intros l Hg; simpl; [done|]. intros [Ho Hos].
  pose proof (good_run a l Hg) as Hg1. pose proof (λ c, run_after a l c (proj1 Hg)) as Ha.
  destruct (run (prog_of a) l) as [l1 r] eqn:E. simpl in Hos, Ha, Hg1. specialize (IH l1 Hg1 Hos).
  destruct (run_calls cs l1) as [l2 rs]. simpl in *. split.
  - destruct (Ha "") as [_ ->]. by apply answers_spec.
  - eapply explains_ext; [|exact IH]. intros c. unfold view at 1. rewrite (proj1 (Ha c)). by apply after_spec.
Qed.

(** ** Calls at the same time *)
Definition inv (P : item → Prop) (y : system) : Prop :=
  uniq (sy_db y) ∧ all_docs (fine P) (sy_db y) ∧
  ∀ t a p, sy_calls y !! t = Some (a, p) → ok (customers a) (fine P) p.
Definition fine_event (P : item → Prop) (e : event) : Prop :=
  match e with Start a => fine_call P a | Step _ _ => True end.
Lemma inv_step P e y y' : closed P → fine_event P e → inv P y → sys_step e y = Some y' → inv P y'.
Proof.
  intros HP He (H1&H2&H3). destruct e as [a|t f]; simpl.
  - intros [= <-]. split_and!; simpl; [done..|]. intros t b p Ht.
    apply lookup_app_Some in Ht as [Ht|[_ Ht]]; [by eapply H3|]. apply list_lookup_singleton_Some in Ht as [_ [= <- <-]].
    by apply prog_ok.
  - destruct (sy_calls y !! t) as [[a [r|o k]]|] eqn:Et; [done| |done].
    destruct (exec_f f o (sy_db y)) as [l r] eqn:E. intros [= <-]. pose proof (H3 _ _ _ Et) as Hok.
    inversion Hok as [|? ? Ho Hp Hd Hk]; subst.
    assert (l = (exec_f f o (sy_db y)).1) as -> by by rewrite E.
    assert (r = (exec_f f o (sy_db y)).2) as Er by by rewrite E.
    split_and!; simpl; [by apply exec_f_uniq|by apply exec_f_docs|].
    intros t' b p. destruct (decide (t' = t)) as [->|].
    + rewrite list_lookup_insert by (by eapply lookup_lt_Some). intros [= <- <-]. apply Hk. intros d Ed.
      eapply exec_f_res; [done|]. by rewrite <-Er.
    + rewrite list_lookup_insert_ne by done. apply H3.
Qed.
Lemma inv_run P es y y' : closed P → Forall (fine_event P) es → inv P y → sys_run es y = Some y' → inv P y'.
Proof.
  intros HP. revert y. induction es as [|e es IH]; simpl; intros y He Hy; [by intros [= <-]|].
  apply Forall_cons in He as [He Hes]. destruct (sys_step e y) as [y1|] eqn:E; [|done].
  apply IH; [done|]. by eapply inv_step.
Qed.
Lemma inv_init P : inv P init.
Proof. split_and!; [apply NoDup_nil_2|done|done]. Qed.
Lemma any_events es : Forall (fine_event any) es.
Proof. apply Forall_forall. intros [a|] _; [apply any_call|done]. Qed.
Lemma reachable_inv y : reachable y → inv any y.
Proof. intros [es H]. eapply inv_run; [apply any_closed|apply any_events|apply inv_init|done]. Qed.
Lemma reachable_good y : reachable y → good (sy_db y).
Proof. intros (H1&H2&_)%reachable_inv. done. Qed.

(** What a finished GetCart answered comes from a document. *)
Definition told (P : item → Prop) (c : string) (p : prog) : Prop :=
  match p with
  | Ret (RItems l) => state_ok P l
  | Ret _ => True
  | _ => p = prog_of (GetCart c) end.
Definition inv_told (P : item → Prop) (y : system) : Prop :=
  ∀ t c p, sy_calls y !! t = Some (GetCart c, p) → told P c p.
Lemma told_step P e y y' : inv P y → inv_told P y → sys_step e y = Some y' → inv_told P y'.
Proof.
  intros (H1&H2&H3) HT. destruct e as [a|t f]; simpl.
  - intros [= <-] t c p. simpl. intros Ht.
    apply lookup_app_Some in Ht as [Ht|[_ Ht]]; [by eapply HT|]. by apply list_lookup_singleton_Some in Ht as [_ [= -> <-]].
  - destruct (sy_calls y !! t) as [[a [r|o k]]|] eqn:Et; [done| |done].
    destruct (exec_f f o (sy_db y)) as [l r] eqn:E. intros [= <-] t' c p. simpl. destruct (decide (t' = t)) as [->|].
    + rewrite list_lookup_insert by (by eapply lookup_lt_Some). intros [= -> <-].
      pose proof (HT _ _ _ Et) as HTt. simpl in HTt. unfold p_get, get_cart in HTt. simplify_eq.
      destruct r as [|[d|]|]; simpl; [done| | |done].
      * assert (fine P d) as (?&_&?); [|done]. eapply (exec_f_res (fine P) f); [done|]. by rewrite E.
      * split; [apply NoDup_nil_2|done].
    + rewrite list_lookup_insert_ne by done. apply HT.
Qed.
Lemma told_run P es y y' :
  closed P → Forall (fine_event P) es → inv P y → inv_told P y → sys_run es y = Some y' → inv_told P y'.
Proof.
  intros HP. revert y. induction es as [|e es IH]; simpl; intros y He Hy HT; [by intros [= <-]|].
  apply Forall_cons in He as [He Hes]. destruct (sys_step e y) as [y1|] eqn:E; [|done].
  apply IH; [done|by eapply inv_step|by eapply told_step].
Qed.

(** *** Calls that do not overlap *)
Lemma run_calls_app cs a l :
  run_calls (cs ++ [a]) l =
  let '(L, rs) := run_calls cs l in let '(L', r) := run (prog_of a) L in (L', rs ++ [r]).
Proof.
  revert l. induction cs as [|b cs IH]; intros l; simpl.
  - by destruct (run (prog_of a) l).
  - destruct (run (prog_of b) l) as [l1 r1]. rewrite IH. destruct (run_calls cs l1) as [L rs].
    by destruct (run (prog_of a) L).
Qed.
Lemma run_calls_length cs l : length (run_calls cs l).2 = length cs.
Proof.
  revert l. induction cs as [|b cs IH]; intros l; simpl; [done|]. destruct (run (prog_of b) l) as [l1 r1].
  specialize (IH l1). destruct (run_calls cs l1). simpl in *. by rewrite IH.
Qed.
Lemma good_run_calls cs l : good l → good (run_calls cs l).1.
Proof.
  revert l. induction cs as [|b cs IH]; intros l Hg; simpl; [done|]. pose proof (good_run b l Hg) as H.
  destruct (run (prog_of b) l) as [l1 r1]. specialize (IH l1 H). by destruct (run_calls cs l1).
Qed.
Definition busy (y : system) (c : string) : Prop :=
  ∃ t a p, sy_calls y !! t = Some (a, p) ∧ running p = true ∧ c ∈ customers a.
Definition serial (y : system) : Prop :=
  let L := (run_calls (sy_calls y).*1 []).1 in let rs := (run_calls (sy_calls y).*1 []).2 in
  (∀ t a p, sy_calls y !! t = Some (a, p) → rs !! t = Some (run p (sy_db y)).2) ∧
  (∀ t a p, sy_calls y !! t = Some (a, p) → running p = true →
     ∀ c, c ∈ customers a → find_one c (run p (sy_db y)).1 = find_one c L) ∧
  (∀ c, ¬ busy y c → find_one c (sy_db y) = find_one c L) ∧
  (∀ t t' a a' p p', sy_calls y !! t = Some (a, p) → sy_calls y !! t' = Some (a', p') → t ≠ t' →
     running p = true → running p' = true → customers a ## customers a').
Lemma serial_start y a : inv any y → serial y → no_overlap y (Start a) → serial (System (sy_db y) (sy_calls y ++ [(a, prog_of a)])).
Proof.
  intros (U1&U2&U3) (H1&H2&H3&H4) Hno. simpl in Hno. unfold serial. simpl. rewrite fmap_app. simpl.
  rewrite run_calls_app. pose proof (good_run_calls (sy_calls y).*1 [] good_nil) as HL.
  pose proof (run_calls_length (sy_calls y).*1 []) as Hlen.
  destruct (run_calls (sy_calls y).*1 []) as [L rs] eqn:EL. simpl in *.
  assert (∀ c, c ∈ customers a → ¬ busy y c) as Hnb.
  { intros c Hc (t&b&p&Ht&Hp&Hc'). by eapply (Hno t b p Ht Hp). }
  pose proof (prog_ok any a any_closed (any_call a)) as Hok.
  destruct (run_local _ _ _ (sy_db y) L Hok U1 (proj1 HL) U2) as [E1 E2]; [intros c Hc; by apply H3, Hnb|].
  destruct (run_ok _ _ _ L Hok (proj1 HL) (proj2 HL)) as (_&_&Hout).
  destruct (run (prog_of a) L) as [L' r] eqn:Er. simpl in *.
  split_and!.
  - intros t b p Ht. apply lookup_app_Some in Ht as [Ht|[Hge Ht]].
    + rewrite lookup_app_l; [by eapply H1|]. rewrite Hlen, fmap_length. by eapply lookup_lt_Some.
    + apply list_lookup_singleton_Some in Ht as [Ht [= <- <-]]. rewrite lookup_app_r; rewrite Hlen, fmap_length; [|done].
      rewrite Ht. simpl. by rewrite E1.
  - intros t b p Ht Hp c Hc. apply lookup_app_Some in Ht as [Ht|[Hge Ht]].
    + rewrite Hout; [by eapply H2|]. intros Hc'. by eapply (Hno t b p Ht Hp).
    + apply list_lookup_singleton_Some in Ht as [Ht [= <- <-]]. by apply E2.
  - intros c Hb. rewrite Hout.
    + apply H3. intros (t&b&p&Ht&?). apply Hb. exists t, b, p. split; [|done]. simpl. by apply lookup_app_l_Some.
    + intros Hc. apply Hb. exists (length (sy_calls y)), a, (prog_of a). split_and!; [|by destruct a|done]. simpl.
      rewrite lookup_app_r by done. by rewrite Nat.sub_diag.
  - intros t t' b b' p p' Ht Ht' Hne Hp Hp'.
    apply lookup_app_Some in Ht as [Ht|[Hge Ht]]; apply lookup_app_Some in Ht' as [Ht'|[Hge' Ht']].
    + by eapply (H4 t t').
    + apply list_lookup_singleton_Some in Ht' as [_ [= <- <-]].
      intros z Hz Hz'. by eapply (Hno t b p Ht Hp z).
    + apply list_lookup_singleton_Some in Ht as [_ [= <- <-]]. by eapply Hno.
    + apply list_lookup_singleton_Some in Ht as [? _]. apply list_lookup_singleton_Some in Ht' as [? _]. lia.
Qed.
Lemma serial_step y t a o k :
  inv any y → serial y → sy_calls y !! t = Some (a, Do o k) →
  serial (System (exec o (sy_db y)).1 (<[t := (a, k (exec o (sy_db y)).2)]> (sy_calls y))).
Proof.
  intros (U1&U2&U3) (H1&H2&H3&H4) Et. unfold serial. simpl.
  assert ((<[t := (a, k (exec o (sy_db y)).2)]> (sy_calls y)).*1 = (sy_calls y).*1) as ->.
  { rewrite list_fmap_insert. simpl. apply list_insert_id. by rewrite list_lookup_fmap, Et. }
  set (L := (run_calls (sy_calls y).*1 []).1) in *. set (rs := (run_calls (sy_calls y).*1 []).2) in *.
  pose proof (U3 _ _ _ Et) as Hok. inversion Hok as [|? ? Ho Hp Hd Hk]; subst.
  assert (∀ l' r', exec o (sy_db y) = (l', r') → run (Do o k) (sy_db y) = run (k r') l') as Hrun.
  { intros l' r' E. simpl. by rewrite E. }
  specialize (Hrun (exec o (sy_db y)).1 (exec o (sy_db y)).2 (surjective_pairing _)).
  assert (uniq (exec o (sy_db y)).1) as U1' by by apply exec_uniq.
  assert (∀ c, c ∉ customers a → find_one c (exec o (sy_db y)).1 = find_one c (sy_db y)) as Hout.
  { intros c Hc. rewrite exec_find by done. rewrite decide_False; [done|congruence]. }
  assert (∀ t' b p, t' ≠ t → sy_calls y !! t' = Some (b, p) → running p = true →
            (run p (sy_db y)).2 = (run p (exec o (sy_db y)).1).2 ∧
            ∀ c, c ∈ customers b → find_one c (run p (sy_db y)).1 = find_one c (run p (exec o (sy_db y)).1).1) as Hother.
  { intros t' b p Hne Ht' Hrp. apply (run_local (customers b) (fine any)); [by eapply U3|done|done|done|].
    intros c Hc. symmetry. apply Hout. intros Hc'. by eapply (H4 t t' a b); eauto. }
  assert (t < length (sy_calls y)) as Hlt by by eapply lookup_lt_Some.
  split_and!.
  - intros t' b p. destruct (decide (t' = t)) as [->|Hne].
    + rewrite list_lookup_insert by done. intros [= <- <-]. rewrite <-Hrun. by eapply H1.
    + rewrite list_lookup_insert_ne by done. intros Ht'. destruct p as [r|o' k'].
      * by rewrite (H1 _ _ _ Ht').
      * rewrite (H1 _ _ _ Ht'). f_equal. by apply (Hother t' b).
  - intros t' b p. destruct (decide (t' = t)) as [->|Hne].
    + rewrite list_lookup_insert by done. intros [= <- <-] _ c Hc. rewrite <-Hrun. by eapply H2.
    + rewrite list_lookup_insert_ne by done. intros Ht' Hp' c Hc.
      rewrite <-(H2 _ _ _ Ht' Hp' c Hc). symmetry. by apply (Hother t' b).
  - intros c Hb. destruct (decide (c ∈ customers a)) as [Hc|Hc].
    + destruct (k (exec o (sy_db y)).2) as [r|o' k'] eqn:Ek.
      * rewrite <-(H2 _ _ _ Et eq_refl c Hc), Hrun. done.
      * exfalso. apply Hb. exists t, a, (Do o' k'). split_and!; [|done|done]. simpl. by rewrite list_lookup_insert.
    + rewrite Hout by done. apply H3. intros (t'&b&p&Ht'&Hp'&Hc'). apply Hb. exists t', b, p. split_and!; [|done|done].
      simpl. rewrite list_lookup_insert_ne; [done|]. intros ->. rewrite Et in Ht'. by simplify_eq.
  - intros t1 t2 b1 b2 p1 p2. 
    assert (∀ t' b p, <[t := (a, k (exec o (sy_db y)).2)]> (sy_calls y) !! t' = Some (b, p) → running p = true →
              ∃ p0, sy_calls y !! t' = Some (b, p0) ∧ running p0 = true) as Hb.
    { intros t' b p. destruct (decide (t' = t)) as [->|].
      - rewrite list_lookup_insert by done. intros [= <- <-] _. eauto.
      - rewrite list_lookup_insert_ne by done. eauto. }
    intros Ht1 Ht2 Hne Hp1 Hp2. destruct (Hb _ _ _ Ht1 Hp1) as (q1&?&?). destruct (Hb _ _ _ Ht2 Hp2) as (q2&?&?).
    by eapply (H4 t1 t2).
Qed.
Lemma serial_run es y y' :
  inv any y → serial y → no_overlaps es y → sys_run es y = Some y' → serial y'.
Proof.
  revert y. induction es as [|e es IH]; simpl; intros y Hi Hs; [by intros _ [= <-]|]. intros [Hno Hr].
  destruct (sys_step e y) as [y1|] eqn:E; [|done]. apply IH; [| |by apply Hr].
  - eapply inv_step; [apply any_closed| |done|done]. destruct e; [apply any_call|done].
  - destruct e as [a|t f]; simpl in E, Hno.
    + simplify_eq. by apply serial_start.
    + subst f. destruct (sy_calls y !! t) as [[a [r|o k]]|] eqn:Et; [done| |done]. simpl in E.
      destruct (exec o (sy_db y)) as [l r] eqn:Ex. simplify_eq.
      pose proof (serial_step y t a o k Hi Hs Et) as H. by rewrite Ex in H.
Qed.
Lemma serial_init : serial init.
Proof. split_and!; done. Qed.

(** ** Failures *)
Lemma run_f_get c k fs l :
  (∃ r, run_f (get_cart c k) fs l = (l, r) ∧ (r = None ∨ r = Some RErr)) ∨
  ∃ fs', run_f (get_cart c k) fs l = run_f (k (items l c)) fs' l.
Proof.
  destruct fs as [|[] fs]; simpl; [left; eauto| |left; eauto|left; eauto]. right. exists fs. unfold items.
  by destruct (find_one c l).
Qed.
Lemma run_f_finish o rep fs l :
  run_f (finish o rep) fs l ∈ [(l, None); (l, Some RErr); ((exec o l).1, Some RErr); ((exec o l).1, Some rep)].
Proof.
  destruct fs as [|[] fs]; simpl; [set_solver| |set_solver|set_solver].
  destruct o; simpl; set_solver.
Qed.
(** Either nothing happened or everything did; a reply that is no error is the right one. *)
Definition atomic (p : prog) (l : db) (x : db * option reply) : Prop :=
  (x.1 = l ∨ x.1 = (run p l).1) ∧ ∀ r, x.2 = Some r → r ≠ RErr → x = ((run p l).1, Some (run p l).2).
Lemma atomic_same p p' l x : run p l = run p' l → atomic p l x → atomic p' l x.
Proof. unfold atomic. by intros ->. Qed.
Lemma atomic_finish o rep fs l : atomic (finish o rep) l (run_f (finish o rep) fs l).
Proof.
  unfold atomic. rewrite run_finish. pose proof (run_f_finish o rep fs l) as H.
  destruct (run_f (finish o rep) fs l) as [l' r]. simpl. set_unfold in H.
  destruct H as [H|[H|[H|[H|[]]]]]; simplify_eq; (split; [auto|]); intros ? [= <-]; done.
Qed.
Lemma atomic_get c k fs l :
  (∀ fs', atomic (k (items l c)) l (run_f (k (items l c)) fs' l)) →
  atomic (get_cart c k) l (run_f (get_cart c k) fs l).
Proof.
  intros H. destruct (run_f_get c k fs l) as [(r&->&Hr)|[fs' ->]].
  - split; [by left|]. intros r' E. simpl in E. destruct Hr as [->| ->]; simplify_eq. done.
  - eapply atomic_same; [|apply H]. by rewrite run_get.
Qed.
Lemma atomic_ret r fs l : atomic (Ret r) l (run_f (Ret r) fs l).
Proof. destruct fs; (split; [by left|]); simpl; intros ? [= <-]; done. Qed.
Lemma atomic_call a fs l :
  (∀ c s, a ≠ MergeCarts c s) → atomic (prog_of a) l (run_f (prog_of a) fs l).
Proof.
  intros Ha. destruct a as [c|c|c s|c i|c i|c i|c i]; simpl.
  - apply atomic_get. intros. apply atomic_ret.
  - apply atomic_finish.
  - by destruct (Ha c s).
  - apply atomic_get. intros. apply atomic_ret.
  - apply atomic_get. intros fs'. destruct (find_item _ _); apply atomic_finish.
  - apply atomic_get. intros fs'. destruct (find_item _ _); [|apply atomic_ret].
    destruct (remove_item _ _); apply atomic_finish.
  - apply atomic_get. intros fs'. destruct (find_item _ _).
    + cbv zeta. destruct (decide _).
      * destruct (remove_item _ _); apply atomic_finish.
      * destruct (set_item _ _ _); apply atomic_finish.
    + destruct (decide _); [apply atomic_ret|apply atomic_finish].
Qed.
(** A merge: also the state in which the session's cart is still there. *)
Lemma merge_failures c s fs l :
  let m := (exec (Upsert c (Cart c (merge_loop (items l s) (items l c) None))) l).1 in
  let x := run_f (prog_of (MergeCarts c s)) fs l in
  let y := run (prog_of (MergeCarts c s)) l in
  (x.1 = l ∨ (items l s ≠ [] ∧ x.1 = m) ∨ x.1 = y.1) ∧
  ∀ r, x.2 = Some r → r ≠ RErr → x = (y.1, Some y.2).
Proof.
  intros m x y. unfold x, y, prog_of, p_merge. rewrite !run_get. clear x y.
  destruct (run_f_get s (λ ls, get_cart c (λ lc, match ls with
     | [] => Ret ROk
     | _ => Do (Upsert c (Cart c (merge_loop ls lc None))) (λ r,
             match r with DErr => Ret RErr | _ => finish (DeleteOne s) ROk end) end)) fs l) as [(r&->&Hr)|[fs' ->]].
  { split; [by left|]. simpl. destruct Hr as [->| ->]; [done|]. by intros ? [= <-]. }
  edestruct (run_f_get c) as [(r&->&Hr)|[fs'' ->]].
  { split; [by left|]. simpl. destruct Hr as [->| ->]; [done|]. by intros ? [= <-]. }
  destruct (items l s) as [|i r] eqn:Es.
  { split; [by left|]. simpl. destruct fs''; by intros ? [= <-]. }
  assert (∀ k, run (Do (Upsert c (Cart c (merge_loop (i :: r) (items l c) None))) k) l = run (k DDone) m) as -> by done.
  rewrite run_finish. set (E := (exec (DeleteOne s) m).1).
  destruct fs'' as [|[] fs''].
  - split; [by left|]. done.
  - change (let x := run_f (finish (DeleteOne s) ROk) fs'' m in
            (x.1 = l ∨ (i :: r ≠ [] ∧ x.1 = m) ∨ x.1 = E) ∧ ∀ r0, x.2 = Some r0 → r0 ≠ RErr → x = (E, Some ROk)).
    pose proof (run_f_finish (DeleteOne s) ROk fs'' m) as H. change (exec (DeleteOne s) m).1 with E in H.
    destruct (run_f (finish (DeleteOne s) ROk) fs'' m) as [l' r']. cbn [fst snd]. set_unfold in H.
    destruct H as [H|[H|[H|[H|[]]]]]; simplify_eq; (split; [auto|]); intros ? [= <-]; done.
  - split; [by left|]. simpl. destruct fs''; by intros ? [= <-].
  - split; [right; left; done|]. simpl. destruct fs''; by intros ? [= <-].
Qed.
