From Coq Require Import ZifyBool ZifyNat ZifyN Lia.
From Verif Require Import Cache_Model Cache_Spec.

Lemma fold_put kvs (c : cache) k :
  fold_left (λ c kv, put c kv.1 kv.2) kvs c !! k =
  match last_in k kvs with Some v => Some v | None => c !! k end.
Proof.
  revert c. induction kvs as [|[k' v] kvs IH]; intros c; simpl; [done|]. rewrite IH.
  destruct (last_in k kvs); [done|]. unfold put. case_bool_decide as H; simpl.
  - subst. by rewrite lookup_insert.
  - by rewrite lookup_insert_ne.
Qed.

Lemma incr_lookup (c : cache) k k' :
  fst (incr c k') !! k =
  if bool_decide (k' = k) then
    match c !! k with None => Some (VInt 1) | Some (VInt z) => Some (VInt (wrap64 (z + 1))) | Some v => Some v end
  else c !! k.
Proof.
  unfold incr, read_int, get, put. case_bool_decide as H.
  - subst. destruct (c !! k) as [v|] eqn:E; simpl.
    + destruct v as [|z|m d|te vs]; simpl; rewrite ?E; try done.
      by rewrite lookup_insert.
    + by rewrite lookup_insert.
  - destruct (c !! k') as [v|] eqn:E; simpl.
    + destruct v as [|z|m d|te vs]; simpl; try done. by rewrite lookup_insert_ne.
    + by rewrite lookup_insert_ne.
Qed.

Lemma crun_snoc h o : crun (h ++ [o]) = fst (cstep (crun h) o).
Proof. unfold crun. by rewrite fold_left_app. Qed.

Lemma crun_current h k : crun h !! k = current (rev h) k.
Proof.
  induction h as [|o h IH] using rev_ind; [done|]. rewrite crun_snoc, rev_app_distr. simpl.
  destruct o as [k' v|k' d|ks vs|ks ds|k'|k']; simpl.
  - unfold put. case_bool_decide; [subst; by rewrite lookup_insert|by rewrite lookup_insert_ne].
  - done.
  - unfold mset. case_bool_decide; simpl; [|done]. rewrite fold_put. by rewrite IH.
  - done.
  - unfold del. case_bool_decide; [subst; by rewrite lookup_delete|by rewrite lookup_delete_ne].
  - pose proof (incr_lookup (crun h) k k') as H. destruct (incr (crun h) k'). simpl in *.
    by rewrite H, IH.
Qed.

Lemma last_in_not k kvs : k ∉ kvs.*1 → last_in k kvs = None.
Proof.
  induction kvs as [|[k' v] kvs IH]; [done|]. rewrite fmap_cons, not_elem_of_cons. intros [H1 H2]. simpl.
  rewrite IH by done. by rewrite bool_decide_false.
Qed.

Lemma zip_fst_subset {A B} (l : list A) (k : list B) x : x ∈ (zip l k).*1 → x ∈ l.
Proof.
  revert k. induction l as [|a l IH]; intros [|b k]; simpl; try (by intros H%elem_of_nil).
  intros [->|H]%elem_of_cons; [by left|right; eauto].
Qed.

Lemma other_keys h o k : k ∉ writes o → crun (h ++ [o]) !! k = crun h !! k.
Proof.
  rewrite !crun_current, rev_app_distr. simpl. intros Hk.
  destruct o as [k' v|k' d|ks vs|ks ds|k'|k']; simpl in *; try done;
    try (rewrite bool_decide_false by set_solver; done).
  case_bool_decide; [|done]. rewrite last_in_not; [done|]. intros ?%zip_fst_subset. done.
Qed.

(** Replies *)
Lemma reply_get h k d :
  snd (cstep (crun h) (OpGet k d)) =
  RGet (match current (rev h) k with Some v => GHit (copy_to v d) | None => GMiss end).
Proof. simpl. unfold get. by rewrite crun_current. Qed.

Lemma mget_loop_lookup c kds i r :
  mget_loop c kds !! i = Some r → ∃ k d, kds !! i = Some (k, d) ∧ r = get c k d.
Proof.
  revert i. induction kds as [|[k d] kds IH]; intros i; cbn [mget_loop]; [done|].
  destruct i as [|i]; simpl.
  - intros [= <-]. eauto.
  - destruct (get c k d) as [|[w| |]]; try done; apply IH.
Qed.
Lemma mget_loop_length c kds :
  GHit CErr ∉ mget_loop c kds → GHit CPanic ∉ mget_loop c kds → length (mget_loop c kds) = length kds.
Proof.
  induction kds as [|[k d] kds IH]; cbn [mget_loop]; [done|].
  rewrite !not_elem_of_cons. intros [H1 H2] [H3 H4]. cbn [length].
  destruct (get c k d) as [|[w| |]]; try done; f_equal; by apply IH.
Qed.

Definition readable (c : cache) (k : string) (d : dest) : Prop :=
  match get c k d with GHit CErr | GHit CPanic => False | _ => True end.
Lemma mget_spec c ks ds :
  length ks = length ds → (∀ i k d, ks !! i = Some k → ds !! i = Some d → readable c k d) →
  mget c ks ds = Some (zip_with (get c) ks ds).
Proof.
  intros Hl Hr. unfold mget. rewrite bool_decide_true by done. f_equal. clear Hl.
  revert ds Hr. induction ks as [|k ks IH]; intros [|d ds] Hr; try done. cbn [zip_with mget_loop].
  pose proof (Hr 0 k d eq_refl eq_refl) as H0. unfold readable in H0.
  f_equal. destruct (get c k d) as [|[w| |]]; try done.
  all: change (zip_with pair ks ds) with (zip ks ds); apply IH; intros i; apply (Hr (S i)).
Qed.

(** ** Concurrent increments *)
Lemma sum_list_with_insert {A} (f : A → nat) (l : list A) i x y :
  l !! i = Some y → sum_list_with f (<[i := x]> l) + f y = sum_list_with f l + f x.
Proof.
  revert i. induction l as [|a l IH]; intros [|i] H; simpl in *; try done.
  - injection H as ->. lia.
  - specialize (IH _ H). lia.
Qed.

Lemma insert_Some_inv {A} (l : list A) i j x y :
  <[i := x]> l !! j = Some y → (j = i ∧ y = x) ∨ (i ≠ j ∧ l !! j = Some y).
Proof. intros [(->&->&?)|[? ?]]%list_lookup_insert_Some; auto. Qed.

Section incr.
  Context (init : Z) (n : Z).

  (** c + pending <= init + n, seen values are at most the current bound, at least init. *)
  Definition iinv (s : Z * list ithread) : Prop :=
    (init ≤ fst s)%Z ∧
    (* every thread's write, if done now, still respects the bound *)
    (∀ i z m, snd s !! i = Some (ThRead z m) → (init ≤ z)%Z ∧ (z + total_pending (snd s) ≤ init + n)%Z) ∧
    (fst s + total_pending (snd s) ≤ init + n)%Z ∧
    (total_pending (snd s) < n → init + 1 ≤ fst s)%Z.

  Lemma iinv_step s t : iinv s → iinv (istep s t).
  Proof.
    destruct s as [c ts]. unfold iinv, istep, total_pending. simpl. intros (H1&H2&H3&H4).
    destruct (ts !! t) as [[[|m]|z m]|] eqn:E; simpl; try done.
    - pose proof (sum_list_with_insert pending ts t (ThRead c m) _ E) as Hs. simpl in Hs.
      split_and!; [done| |lia|intros; apply H4; lia]. intros i z m' [[-> [= -> ->]]|[Hne Hl]]%insert_Some_inv.
      + lia.
      + destruct (H2 i z m' Hl). lia.
    - pose proof (sum_list_with_insert pending ts t (ThReady m) _ E) as Hs. simpl in Hs.
      destruct (H2 _ _ _ E) as [Hz1 Hz2].
      split_and!; [lia| |lia|lia]. intros i z' m' [[-> [=]]|[Hne Hl]]%insert_Some_inv.
      destruct (H2 i z' m' Hl). lia.
  Qed.

  Lemma iinv_run s sched : iinv s → iinv (irun s sched).
  Proof.
    unfold irun. revert s. induction sched as [|t sched IH]; intros s Hs; [done|]. simpl.
    apply IH. by apply iinv_step.
  Qed.
End incr.

Lemma iinv_init init ts : all_ready ts → iinv init (total_pending ts) (init, ts).
Proof.
  intros Hr. unfold iinv. simpl. split_and!; [lia| |lia|lia].
  intros i z m Hi. specialize (Hr _ (elem_of_list_lookup_2 _ _ _ Hi)). done.
Qed.

Lemma incr_bounds init ts sched c ts' :
  all_ready ts → irun (init, ts) sched = (c, ts') →
  let done := (total_pending ts - total_pending ts')%Z in
  (init ≤ c)%Z ∧ (c ≤ init + done)%Z ∧ (0 < done → init + 1 ≤ c)%Z.
Proof.
  intros Hr Heq. pose proof (iinv_run init _ _ sched (iinv_init init ts Hr)) as H. rewrite Heq in H.
  destruct H as (H1&_&H3&H4). simpl in *. split_and!; [done|lia|]. intros. apply H4. lia.
Qed.

(** Increments that do not overlap. *)
Lemma incr_serial init ts ord c ts' :
  all_ready ts → irun (init, ts) (flat_map (λ t, [t; t]) ord) = (c, ts') →
  all_ready ts' ∧ (c = init + (total_pending ts - total_pending ts'))%Z.
Proof.
  revert init ts. induction ord as [|t ord IH]; intros init ts Hr.
  { intros [= <- <-]. split; [done|lia]. }
  cbn [flat_map app]. unfold irun. cbn [fold_left]. fold (irun (istep (istep (init, ts) t) t) (flat_map (λ t, [t; t]) ord)).
  unfold istep at 2. cbn [fst snd].
  destruct (ts !! t) as [[[|m]|z m]|] eqn:E.
  - unfold istep. cbn [fst snd]. rewrite E. by apply IH.
  - unfold istep. cbn [fst snd]. rewrite list_lookup_insert by (by eapply lookup_lt_Some).
    rewrite list_insert_insert. intros Hrun. apply IH in Hrun as [H1 H2].
    + split; [done|]. pose proof (sum_list_with_insert pending ts t (ThReady m) _ E) as Hs.
      unfold total_pending in *. simpl in Hs. lia.
    + intros x Hx. apply elem_of_list_lookup in Hx as [i Hi]. apply insert_Some_inv in Hi as [[-> ->]|[? Hi]]; [done|].
      apply Hr. by eapply elem_of_list_lookup_2.
  - specialize (Hr _ (elem_of_list_lookup_2 _ _ _ E)). done.
  - unfold istep. cbn [fst snd]. rewrite E. by apply IH.
Qed.
