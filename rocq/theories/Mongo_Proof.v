From Verif Require Import Mongo_Spec Filter_Proof Coll_Proof.
From stdpp Require Export list.
Set Default Proof Using "Type".

(** ** Exact equality *)
Lemma same_val_true a : ∀ b, same_val a b = true ↔ a = b.
Proof.
  unfold same_val. induction a as [|b|t z|s x|s|k i|l IH| | |l IH|d IH] using val_ind'; intros v; destruct v; simpl;
    try (split; [done|discriminate]); try done.
  - rewrite Bool.eqb_true_iff. split; congruence.
  - rewrite andb_true_iff, bool_decide_eq_true, Z.eqb_eq. split; [intros [-> ->]; done|intros [= -> ->]; done].
  - rewrite andb_true_iff, Bool.eqb_true_iff, Z.eqb_eq. split; [intros [-> ->]; done|intros [= -> ->]; done].
  - rewrite bool_decide_eq_true. split; congruence.
  - rewrite andb_true_iff, !Nat.eqb_eq. split; [intros [-> ->]; done|intros [= -> ->]; done].
  - revert l0. induction IH as [|x l Hx _ IHl]; intros [|y r]; try (split; [done|discriminate]); [done|].
    rewrite andb_true_iff, Hx, IHl. split; [intros [-> [= ->]]; done|intros [= -> ->]; done].
  - revert l0. induction IH as [|x l Hx _ IHl]; intros [|y r]; try (split; [done|discriminate]); [done|].
    rewrite andb_true_iff, Hx, IHl. split; [intros [-> [= ->]]; done|intros [= -> ->]; done].
  - revert d0. induction IH as [|[k x] l Hx _ IHl]; intros [|[j y] r]; try (split; [done|discriminate]); [done|].
    simpl in Hx. rewrite !andb_true_iff, bool_decide_eq_true, Hx, IHl. split; [intros [-> [-> [= ->]]]; done|intros [= -> -> ->]; done].
Qed.
Lemma keeps_id_true d e : keeps_id d e = true ↔ field "_id" d = field "_id" e.
Proof.
  unfold keeps_id. destruct (field "_id" d), (field "_id" e); try (split; [done|discriminate]); try done.
  rewrite same_val_true. split; congruence.
Qed.

(** ** Fields *)
Lemma field_keys k d : (∃ v, field k d = Some v) ↔ k ∈ keys d.
Proof.
  unfold keys. induction d as [|[j v] d IH]; simpl; [split; [by intros [? ?]|by intros ?%elem_of_nil]|].
  rewrite elem_of_cons. case_bool_decide; [subst; split; eauto|]. rewrite IH. naive_solver.
Qed.
Lemma field_none k d : field k d = None ↔ k ∉ keys d.
Proof. rewrite <- field_keys. destruct (field k d); naive_solver. Qed.
Lemma has_id_field d : has_id d = true ↔ ∃ v, field "_id" d = Some v.
Proof. rewrite has_id_spec. symmetry. apply field_keys. Qed.
Lemma has_id_none d : has_id d = false ↔ field "_id" d = None.
Proof. pose proof (has_id_field d) as H. destruct (has_id d), (field "_id" d); naive_solver. Qed.
Lemma field_remove k j d : k ≠ j → field k (remove_field j d) = field k d.
Proof.
  intros Hk. induction d as [|[i v] d IH]; simpl; [done|]. case_bool_decide; subst.
  - by rewrite bool_decide_eq_false_2 by congruence.
  - simpl. by rewrite IH.
Qed.
Lemma field_id_first k d : field k (id_first d) = field k d.
Proof.
  unfold id_first. destruct (field "_id" d) as [v|] eqn:Hv; [|done]. simpl. case_bool_decide; [by subst|].
  by apply field_remove.
Qed.
Lemma field_set_field k j v d : field k (set_field j v d) = if bool_decide (k = j ∧ j ∈ keys d) then Some v else field k d.
Proof.
  induction d as [|[i w] d IH]; simpl.
  - rewrite bool_decide_eq_false_2; [done|]. intros [_ H]. by apply elem_of_nil in H.
  - destruct (decide (i = j)) as [->|Hij]; simpl.
    + rewrite (bool_decide_eq_true_2 (j = j)) by done. simpl. destruct (decide (j = k)) as [->|Hk].
      * rewrite !bool_decide_eq_true_2; [done| |done]. split; [done|]. by left.
      * rewrite (bool_decide_eq_false_2 (j = k)) by done. rewrite bool_decide_eq_false_2 by naive_solver. done.
    + rewrite (bool_decide_eq_false_2 (i = j)) by done. simpl. rewrite IH. destruct (decide (i = k)) as [->|Hk].
      * rewrite !(bool_decide_eq_true_2 (k = k)) by done. rewrite bool_decide_eq_false_2 by naive_solver. done.
      * rewrite (bool_decide_eq_false_2 (i = k)) by done. apply (f_equal (λ b : bool, if b then _ else _)), bool_decide_ext.
        unfold keys. simpl. rewrite elem_of_cons. naive_solver.
Qed.
Lemma field_app k d e : field k (d ++ e) = match field k d with Some v => Some v | None => field k e end.
Proof. induction d as [|[i w] d IH]; simpl; [done|]. by case_bool_decide. Qed.
Lemma field_set_or_add k x e : field k (set_or_add x e) = if bool_decide (k = e.1) then Some e.2 else field k x.
Proof.
  destruct e as [j v]. unfold set_or_add. simpl. destruct (field j x) eqn:Hj.
  - rewrite field_set_field. assert (j ∈ keys x) as Hin by (apply field_keys; eauto).
    apply (f_equal (λ b : bool, if b then _ else _)), bool_decide_ext. naive_solver.
  - rewrite field_app. simpl. destruct (decide (k = j)) as [->|Hk].
    + rewrite Hj. by rewrite !bool_decide_eq_true_2.
    + rewrite !bool_decide_eq_false_2 by congruence. by destruct (field k x).
Qed.
Lemma field_set_all k d : ∀ x, NoDup (keys d) →
  field k (foldl set_or_add x d) = match field k d with Some v => Some v | None => field k x end.
Proof.
  induction d as [|[j v] d IH]; intros x Hd; simpl; [done|]. inversion Hd as [|? ? Hj Hd']; subst.
  rewrite IH by done. rewrite field_set_or_add. simpl. destruct (decide (j = k)) as [->|Hk].
  - rewrite !bool_decide_eq_true_2 by done. by rewrite (proj2 (field_none k d)).
  - rewrite !bool_decide_eq_false_2 by congruence. done.
Qed.
Lemma field_in k v d : NoDup (keys d) → field k d = Some v ↔ (k, v) ∈ d.
Proof.
  induction d as [|[j w] d IH]; intros Hd; simpl; [split; [done|by intros ?%elem_of_nil]|].
  inversion Hd as [|? ? Hj Hd']; subst. rewrite elem_of_cons. case_bool_decide as Hk; subst.
  - split; [intros [= ->]; by left|]. intros [[= ->]|Hin]; [done|]. destruct Hj. apply elem_of_list_fmap. by exists (k, v).
  - rewrite IH by done. naive_solver.
Qed.
Lemma field_perm k d d' : NoDup (keys d) → d ≡ₚ d' → field k d = field k d'.
Proof.
  intros Hd Hp. assert (NoDup (keys d')) as Hd' by (unfold keys in *; by rewrite <- Hp).
  destruct (field k d) as [v|] eqn:Hv, (field k d') as [w|] eqn:Hw; [| | |done];
    rewrite ?field_in in * by done.
  - rewrite <- Hp in Hw. f_equal. apply field_in in Hv, Hw; [|done..]. congruence.
  - rewrite Hp in Hv. apply field_in in Hv; [|done]. congruence.
  - rewrite <- Hp in Hw. apply field_in in Hw; [|done]. congruence.
Qed.

Lemma sim_eq d d' : (∀ k, field k d = field k d') → sim d d'.
Proof. intros H k. left. apply H. Qed.

Section proof.
  Context (E : env) (U : uenv) (C : cenv) (S : server).

  (** ** The documents found *)
  Definition agree (q : qfilter) (g : doc → bool) (l l' : list doc) : Prop :=
    Forall2 (λ d d', sim d d' ∧ fapply E q (VDoc d) = Some (g d')) l l'.
  Lemma agree_first q g l l' : agree q g l l' → first_match E q l = Some (m_first g l').
  Proof.
    induction 1 as [|d d' l l' [_ Hd] _ IH]; simpl; [done|]. rewrite Hd. destruct (g d'); [done|]. rewrite IH.
    by destruct (m_first g l').
  Qed.
  Lemma agree_all q g l l' : agree q g l l' → ∃ r, all_matches E q l = Some r ∧ Forall2 sim r (List.filter g l').
  Proof.
    induction 1 as [|d d' l l' [Hs Hd] _ (r & Hr & IH)]; simpl; [eexists; split; [done|constructor]|].
    rewrite Hd, Hr. eexists. split; [done|]. destruct (g d'); [by constructor|done].
  Qed.
  Lemma agree_delete q g l l' all : agree q g l l' → ∀ i begin new new',
    all = take i all ++ l → i ≤ length all → begin ≤ i → Forall2 sim (new ++ slice all begin i) new' →
    ∃ r, delete_loop E q all l i begin new = Some r ∧ Forall2 sim r (new' ++ List.filter (λ d, negb (g d)) l').
  Proof.
    induction 1 as [|d d' l l' [Hs Hd] _ IH]; intros i begin new new' Hall Hi Hb Hn; cbn [delete_loop].
    - rewrite app_nil_r in Hall. assert (length all ≤ i) as Hle.
      { rewrite Hall, take_length. lia. }
      assert (i = length all) as -> by lia. simpl. rewrite app_nil_r. eexists. split; [done|].
      case_bool_decide as Hlt; [done|]. assert (begin = length all) as -> by lia. rewrite slice_nil, app_nil_r in Hn. done.
    - rewrite Hd. assert (all !! i = Some d) as Hat.
      { rewrite Hall, lookup_app_r; rewrite take_length; [|lia]. replace (i - min i (length all)) with 0 by lia. done. }
      pose proof (lookup_lt_Some _ _ _ Hat) as Hlt.
      assert (all = take (Datatypes.S i) all ++ l) as Hall'.
      { erewrite take_S_r by done. rewrite <- app_assoc. done. }
      simpl. destruct (g d'); simpl.
      + apply (IH (Datatypes.S i) (Datatypes.S i) _ new'); [done|lia|lia|]. rewrite slice_nil, app_nil_r.
        case_bool_decide as Hbi; [done|]. assert (begin = i) as -> by lia. by rewrite slice_nil, app_nil_r in Hn.
      + destruct (IH (Datatypes.S i) begin new (new' ++ [d'])) as (r & Hr & Hrr); [done|lia|lia| |].
        * erewrite slice_snoc by (done || lia). rewrite app_assoc. apply Forall2_app; [done|]. by constructor.
        * exists r. split; [done|]. by rewrite <- app_assoc in Hrr.
  Qed.

  Lemma first_match_first q l : ∀ r, first_match E q l = Some r →
    match r with
    | None => ∀ x, x ∈ l → fapply E q (VDoc x) ≠ Some true
    | Some i => ∃ d, l !! i = Some d ∧ first (λ x, fapply E q (VDoc x) = Some true) l (take i l) d (drop (Datatypes.S i) l)
    end.
  Proof.
    induction l as [|d l IH]; intros r; simpl; [intros [= <-] x []%elem_of_nil|].
    destruct (fapply E q (VDoc d)) as [[]|] eqn:Hd; [| |done].
    - intros [= <-]. exists d. split; [done|]. split; [done|]. split; [by intros x ?%elem_of_nil|done].
    - destruct (first_match E q l) as [[i|]|] eqn:Hf; [| |done]; intros [= <-]; specialize (IH _ eq_refl); simpl in IH.
      + destruct IH as (x & Hx & Hl & Hn & Hq). exists x. split; [done|]. split; [simpl; by f_equal|]. split; [|done].
        intros y. simpl. rewrite elem_of_cons. intros [->|Hy]; [congruence|auto].
      + intros x. rewrite elem_of_cons. intros [->|Hx]; [congruence|auto].
  Qed.
  Lemma first_impl (P Q : doc → Prop) l l1 d l2 : (∀ x, P x ↔ Q x) → first P l l1 d l2 → first Q l l1 d l2.
  Proof. intros HPQ (Hl & Hn & Hd). split; [done|]. split; [intros x Hx HQ; apply (Hn x Hx), HPQ, HQ|by apply HPQ]. Qed.
  Lemma selects_iff f q x : parse_filter E f = Some q → selects E f x ↔ fapply E q (VDoc x) = Some true.
  Proof. intros Hf. unfold selects. rewrite Hf. split; [by intros (q' & [= <-] & H)|eauto]. Qed.
  Lemma found_first f q s i d : parse_filter E f = Some q → first_match E q (items s) = Some (Some i) → items s !! i = Some d →
    found E false f s d.
  Proof.
    intros Hf Hm Hd. apply first_match_first in Hm as (d' & Hd' & Hm). assert (d' = d) as -> by congruence.
    exists (take i (items s)), (drop (Datatypes.S i) (items s)). eapply first_impl; [|done]. intros x. symmetry. by apply selects_iff.
  Qed.
  Lemma found_none f q s d : parse_filter E f = Some q → first_match E q (items s) = Some None → ¬ found E false f s d.
  Proof.
    intros Hf Hm (l1 & l2 & Hl & _ & Hd). apply first_match_first in Hm. simpl in Hm. apply (Hm d); [|by apply (selects_iff f q)].
    rewrite Hl. set_solver.
  Qed.
  Lemma not_none f q s i : parse_filter E f = Some q → first_match E q (items s) = Some (Some i) → ¬ none (selects E f) (items s).
  Proof.
    intros Hf Hm Hn. apply first_match_first in Hm as (d & Hd & _ & _ & Hq). apply (Hn d); [by eapply elem_of_list_lookup_2|].
    by apply (selects_iff f q).
  Qed.

  (** ** The invariant *)
  Definition inv (used : list val) (s t : coll) : Prop :=
    ids_used s = ids_used t ∧ Forall2 sim (items s) (items t) ∧
    ∀ x, x ∈ items t → ∃ v, field "_id" x = Some v ∧ v ∈ used.

  Lemma agrees_agree f s t used : inv used s t → filter_agrees E S f s →
    ∃ q g, parse_filter E f = Some q ∧ s_match S f = Some g ∧ agree q g (items s) (items t).
  Proof.
    intros (_ & Hs & _) (q & g & Hq & Hg & Ha). exists q, g. split; [done|]. split; [done|]. unfold agree.
    revert Hs Ha. generalize (items t). induction (items s) as [|d l IH]; intros l' Hs Ha; inversion Hs; subst; constructor.
    - split; [done|]. apply Ha; [by left|done].
    - apply IH; [done|]. intros x x' Hx. apply Ha. by right.
  Qed.

  (** One document changed in place. *)
  Lemma inv_insert used s t i e e' d' : inv used s t → items t !! i = Some d' → sim e e' → field "_id" e' = field "_id" d' →
    inv used (Coll (<[i:=e]> (items s)) (ids_used s)) (Coll (<[i:=e']> (items t)) (ids_used t)).
  Proof.
    intros (Hn & Hs & Hu) Hd He Hid. split; [done|]. split; [by apply Forall2_insert|]. simpl. intros x Hx.
    apply elem_of_list_lookup in Hx as [j Hj]. apply list_lookup_insert_Some in Hj as [(<- & -> & _)|[_ Hj]].
    - rewrite Hid. apply Hu. by eapply elem_of_list_lookup_2.
    - apply Hu. by eapply elem_of_list_lookup_2.
  Qed.
  Lemma inv_sub used s t l l' : inv used s t → Forall2 sim l l' → (∀ x, x ∈ l' → x ∈ items t) →
    inv used (Coll l (ids_used s)) (Coll l' (ids_used t)).
  Proof. intros (Hn & Hs & Hu) Hl Hin. split; [done|]. split; [done|]. intros x Hx. apply Hu, Hin, Hx. Qed.

  (** Inserting a document with the fields of [d]. *)
  Lemma insert_step used s t a d d' : inv used s t → encoded a = Some d → new_id C S used s d → (∀ k, field k d' = field k d) →
    ∃ s' t', insert_one C s a = (s', false) ∧ m_insert C S t d' = (t', false) ∧ inv (id_of C s d :: used) s' t'.
  Proof.
    intros (Hn & Hs & Hu) Ha Hnew Hdd. unfold insert_one. fold (encoded a). rewrite Ha. unfold m_insert, stored.
    assert (has_id d' = has_id d) as ->.
    { apply eq_true_iff_eq. rewrite !has_id_field, Hdd. done. }
    assert (∀ x, field "_id" x = Some (id_of C s d) → has_same_id S (items t) x = false) as Hsame.
    { intros x Hx. unfold has_same_id. apply not_true_is_false. intros (y & Hy & Hb)%existsb_exists. rewrite Hx in Hb.
      apply elem_of_list_In in Hy. destruct (Hu y Hy) as (v & Hv & Hin). rewrite Hv in Hb. rewrite (Hnew v Hin) in Hb. done. }
    destruct (has_id d) eqn:Hid.
    - apply has_id_field in Hid as [v Hv]. assert (id_of C s d = v) as Hidv by (unfold id_of; by rewrite Hv).
      rewrite Hsame by (by rewrite field_id_first, Hdd, Hidv). eexists _, _. split; [done|]. split; [done|].
      split; [done|]. split; [apply Forall2_app; [done|]; constructor; [|constructor]; apply sim_eq; intros k; by rewrite field_id_first, Hdd|].
      simpl. intros x. rewrite elem_of_app, elem_of_list_singleton. intros [Hx| ->].
      + destruct (Hu x Hx) as (w & ? & ?). exists w. split; [done|by right].
      + exists v. rewrite field_id_first, Hdd, Hidv. split; [done|by left].
    - apply has_id_none in Hid. assert (id_of C s d = fresh_id C (ids_used s)) as Hidv by (unfold id_of; by rewrite Hid).
      rewrite <- Hn. rewrite Hsame by (simpl; by rewrite Hidv). eexists _, _. split; [done|]. split; [done|].
      split; [done|]. split; [apply Forall2_app; [done|]; constructor; [|constructor]; apply sim_eq; intros k; simpl; by rewrite Hdd|].
      simpl. intros x. rewrite elem_of_app, elem_of_list_singleton. intros [Hx| ->].
      + destruct (Hu x Hx) as (w & ? & ?). exists w. split; [done|by right].
      + exists (fresh_id C (ids_used s)). simpl. rewrite Hidv. split; [done|by left].
  Qed.
  Lemma inserts_step used s l used' : insertable C S used s l used' → ∀ t, inv used s t →
    ∃ ds s' t', mapM (to_bson C) l = Some ds ∧ insert_many C s l = (s', false) ∧ m_inserts C S t ds = (t', false) ∧ inv used' s' t'.
  Proof.
    induction 1 as [used s|used s a l d used' (Ha & Hb & _) Hnew Hins IH]; intros t Hinv.
    - exists [], s, t. done.
    - destruct (insert_step used s t a d d Hinv Ha Hnew) as (s1 & t1 & Hs1 & Ht1 & Hinv1); [done|].
      rewrite Hs1 in IH. destruct (IH t1 Hinv1) as (ds & s' & t' & Hds & Hs' & Ht' & Hinv').
      exists (d :: ds), s', t'. simpl. rewrite Hb, Hs1, Ht1. simpl. rewrite Hds. done.
  Qed.

  (** Updating many. *)
  Lemma update_apply u us h many f s d d' : parse_update E U u = Some us → s_update S u = Some h →
    (∀ x, found E many f s x → ∃ e, update_doc E U us x = (e, UOk) ∧
        ∀ x', sim x x' → ∃ e', h x' = Some e' ∧ sim e e' ∧ field "_id" e' = field "_id" x') →
    found E many f s d → sim d d' →
    ∃ e e' b, update_doc E U us d = (e, UOk) ∧ m_apply h d' = Some (e', b) ∧ sim e e' ∧ field "_id" e' = field "_id" d' ∧
      ((∃ k, k ≠ "_id"%string ∧ field k e ≠ field k d) → b = true).
  Proof.
    intros _ _ Hall Hd Hs. destruct (Hall d Hd) as (e & He & Hh). destruct (Hh d' Hs) as (e' & He' & Hee & Hid).
    exists e, e', (negb (same_val (VDoc d') (VDoc e'))). split; [done|]. unfold m_apply. rewrite He'.
    rewrite (proj2 (keeps_id_true d' e')) by done. split; [done|]. split; [done|]. split; [done|].
    intros (k & Hk & Hne). destruct (same_val (VDoc d') (VDoc e')) eqn:Hsame; [|done].
    apply same_val_true in Hsame as [= ->]. destruct Hne.
    destruct (Hee k) as [->|[? _]]; [|done]. by destruct (Hs k) as [->|[? _]].
  Qed.
  Lemma update_loop_step q g us h (P : doc → Prop) l l' :
    agree q g l l' →
    (∀ d d', d ∈ l → fapply E q (VDoc d) = Some true → sim d d' →
      ∃ e e' b, update_doc E U us d = (e, UOk) ∧ m_apply h d' = Some (e', b) ∧ sim e e' ∧ field "_id" e' = field "_id" d' ∧ (P d → b = true)) →
    ∃ r r' n m, update_loop E U q us l = (r, n, UOk) ∧ m_update_loop g h l' = (r', m, false) ∧ Forall2 sim r r' ∧
      m ≤ n ∧ ((∀ d, d ∈ l → fapply E q (VDoc d) = Some true → P d) → m = n) ∧
      (∀ x, x ∈ r' → ∃ y, y ∈ l' ∧ field "_id" x = field "_id" y).
  Proof.
    induction 1 as [|d d' l l' [Hs Hd] _ IH]; intros Hall.
    - exists [], [], 0, 0. split; [done|]. split; [done|]. split; [constructor|]. split; [done|]. split; [done|]. by intros x ?%elem_of_nil.
    - destruct IH as (r & r' & n & m & Hr & Hr' & Hrr & Hle & Heq & Hids).
      { intros x x' Hx. apply Hall. by right. }
      cbn [update_loop m_update_loop]. rewrite Hd. destruct (g d') eqn:Hg.
      + destruct (Hall d d') as (e & e' & b & He & He' & Hee & Hid & Hb); [by left|done|done|].
        rewrite He, Hr, He', Hr'. eexists _, _, _, _. split; [done|]. split; [done|]. split; [by constructor|].
        split; [destruct b; lia|]. split.
        * intros HP. rewrite Hb by (apply HP; [by left|done]). f_equal. apply Heq. intros x Hx. apply HP. by right.
        * intros x. rewrite elem_of_cons. intros [->|Hx]; [exists d'; split; [by left|done]|].
          destruct (Hids x Hx) as (y & Hy & ?). exists y. split; [by right|done].
      + rewrite Hr, Hr'. eexists _, _, _, _. split; [done|]. split; [done|]. split; [by constructor|]. split; [done|]. split.
        * intros HP. apply Heq. intros x Hx. apply HP. by right.
        * intros x. rewrite elem_of_cons. intros [->|Hx]; [exists d'; split; [by left|done]|].
          destruct (Hids x Hx) as (y & Hy & ?). exists y. split; [by right|done].
  Qed.

  Lemma same_exact b r r' : same_reply true r r' → same_reply b r r'.
  Proof. destruct 1; constructor; auto. Qed.
  Definition simulated (used' : list val) (exactly : Prop) (x y : coll * reply) : Prop :=
    inv used' x.1 y.1 ∧ same_reply false x.2 y.2 ∧ (exactly → same_reply true x.2 y.2).
  Lemma sim_exact used' P x y : inv used' x.1 y.1 → same_reply true x.2 y.2 → simulated used' P x y.
  Proof. intros Hi Hr. split; [done|]. split; [by apply same_exact|done]. Qed.

  (** What happens at the first match. *)
  Lemma at_first used f s t : inv used s t → filter_agrees E S f s →
    ∃ q g, parse_filter E f = Some q ∧ s_match S f = Some g ∧
      ((first_match E q (items s) = Some None ∧ m_first g (items t) = None ∧ (∀ x, ¬ found E false f s x)) ∨
       ∃ i d d', first_match E q (items s) = Some (Some i) ∧ m_first g (items t) = Some i ∧ items s !! i = Some d ∧ items t !! i = Some d' ∧
         sim d d' ∧ found E false f s d ∧ ¬ none (selects E f) (items s)).
  Proof.
    intros Hinv Hf. destruct (agrees_agree f s t used Hinv Hf) as (q & g & Hq & Hg & Ha). exists q, g. split; [done|]. split; [done|].
    pose proof (agree_first q g _ _ Ha) as Hm. destruct (m_first g (items t)) as [i|] eqn:Hi.
    - right. pose proof (first_match_first _ _ _ Hm) as (d & Hd & _). destruct Hinv as (_ & Hs & _).
      destruct (Forall2_lookup_l _ _ _ _ _ Hs Hd) as (d' & Hd' & Hsim). exists i, d, d'. split_and!; try done.
      + by eapply found_first.
      + by eapply not_none.
    - left. split; [done|]. split; [done|]. intros x. by eapply found_none.
  Qed.

  Lemma simulated_upsert (HS : ∀ d, s_order S d ≡ₚ d) used s t f a used' P : inv used s t → upsertable E C S used s f a used' →
    simulated used' P (upsert E C s f a) (m_upsert C S t f a).
  Proof using Type.
    intros Hinv (Hf & d & (Ha & Hb & Hd) & Hid & Hcov & Hor).
    assert (∀ x k, field k (m_set S d x) = match field k d with Some v => Some v | None => field k x end) as Hset.
    { intros x k. unfold m_set. rewrite field_set_all.
      - by rewrite <- (field_perm k d (s_order S d)).
      - unfold keys in *. by rewrite HS. }
    destruct (at_first used f s t Hinv Hf) as (q & g & Hq & Hg & [(Hm & Hm' & Hno)|(i & x & x' & Hm & Hm' & Hx & Hx' & Hsim & Hfx & Hnn)]);
      unfold upsert, replace_one, m_upsert; rewrite Hq, Hg, Hm, Hb, Hm'; cbn [Nat.eqb orb].
    - destruct Hor as [((x & Hx) & _)|(_ & Hnew & -> & Himp)]; [by destruct (Hno x)|].
      destruct (insert_step used s t a d (m_set S d (s_implied S f)) Hinv Ha Hnew) as (s' & t' & -> & -> & Hinv').
      + intros k. rewrite Hset. destruct (field k d) eqn:Hk; [done|]. destruct (field k (s_implied S f)) eqn:Hi; [|done].
        apply Himp in Hi. congruence.
      + apply sim_exact; [done|]. constructor.
    - destruct Hor as [(_ & ->)|(Hn & _)]; [|done]. rewrite Hx'. unfold m_apply.
      assert (field "_id" (m_set S d x') = field "_id" x') as Hidx.
      { rewrite Hset. destruct (Hid x Hfx) as [->|Heq]; [done|]. destruct (field "_id" d) as [v|] eqn:Hv; [|done].
        destruct (Hsim "_id"%string) as [H|[_ H]]; congruence. }
      rewrite (proj2 (keeps_id_true _ _)) by done. apply sim_exact; [|constructor]. cbn [fst]. apply (inv_insert used s t i d (m_set S d x') x'); try done.
      intros k. rewrite Hset. destruct (field k d) as [v|] eqn:Hk; [by left|]. destruct (decide (k = "_id"%string)) as [->|Hne]; [by right|].
      left. destruct (Hsim k) as [<-|[? _]]; [|done]. destruct (field k x) as [w|] eqn:Hw; [|done].
      destruct (Hcov x k Hfx) as [|Hin]; [apply field_keys; eauto|done|]. apply field_keys in Hin as [? ?]. congruence.
  Qed.

  Lemma simulated_step (HS : ∀ d, s_order S d ≡ₚ d) used s t c used' : inv used s t → portable E U C S used s c used' →
    simulated used' (changing E U s c) (aexec E U C s c) (mexec C S t c).
  Proof using Type.
    intros Hinv. destruct c as [a|l|many f ps m|many f|many f u|f a|id a|f a|f l]; cbn [portable aexec mexec exec changing].
    - intros Hi. inversion Hi as [|? ? ? ? d ? (Ha & Hb & _) Hnew Hrest]; subst. inversion Hrest; subst. rewrite Hb.
      destruct (insert_step used s t a d d Hinv Ha Hnew) as (s' & t' & -> & -> & Hinv'); [done|]. apply sim_exact; [done|constructor].
    - intros [Hne Hi]. destruct (inserts_step _ _ _ _ Hi t Hinv) as (ds & s' & t' & Hds & Hs' & Ht' & Hinv').
      destruct l as [|a l]; [done|]. rewrite Hs', Hds, Ht'. apply sim_exact; [done|constructor].
    - intros (-> & -> & -> & Hf). unfold m_find. rewrite bool_decide_eq_false_2 by (simpl; lia). destruct many; cbn [exec].
      + destruct (agrees_agree f s t used Hinv Hf) as (q & g & Hq & Hg & Ha). rewrite Hq, Hg.
        destruct (agree_all q g _ _ Ha) as (r & -> & Hr). apply sim_exact; [done|by constructor].
      + destruct (at_first used f s t Hinv Hf) as (q & g & Hq & Hg & [(Hm & Hm' & Hno)|(i & x & x' & Hm & Hm' & Hx & Hx' & Hsim & Hfx & Hnn)]);
          rewrite Hq, Hg, Hm, Hm'; (apply sim_exact; [done|]); cbn [read snd id]; apply same_docs; [constructor|].
        rewrite (drop_S _ _ _ Hx), (drop_S _ _ _ Hx'). simpl. constructor; [done|constructor].
    - intros (-> & Hf). destruct many; cbn [exec].
      + destruct (agrees_agree f s t used Hinv Hf) as (q & g & Hq & Hg & Ha). rewrite Hq, Hg.
        destruct (agree_delete q g _ _ (items s) Ha 0 0 [] []) as (r & -> & Hr); [done|lia|lia|constructor|].
        apply sim_exact; [|constructor]. cbn [fst]. apply inv_sub; [done|done|]. intros x Hx. apply elem_of_list_In in Hx.
        apply filter_In in Hx as [Hx _]. by apply elem_of_list_In.
      + destruct (at_first used f s t Hinv Hf) as (q & g & Hq & Hg & [(Hm & Hm' & Hno)|(i & x & x' & Hm & Hm' & Hx & Hx' & Hsim & Hfx & Hnn)]);
          rewrite Hq, Hg, Hm, Hm'; (apply sim_exact; [|constructor]); cbn [fst].
        * destruct Hinv as (Hn & Hs & Hu). by split.
        * rewrite <- delete_take_drop. apply inv_sub; [done| |].
          -- destruct Hinv as (_ & Hs & _). by apply Forall2_delete.
          -- intros y Hy. rewrite delete_take_drop in Hy. apply elem_of_app in Hy as [Hy|Hy]; [by eapply elem_of_take in Hy as (? & ? & _); eapply elem_of_list_lookup_2|].
             apply elem_of_list_lookup in Hy as [j Hj]. rewrite lookup_drop in Hj. by eapply elem_of_list_lookup_2.
    - intros (-> & Hf & us & h & Hu & Hus & Hh & Hall). rewrite Hu, Hh. destruct many; cbn [exec].
      + destruct (agrees_agree f s t used Hinv Hf) as (q & g & Hq & Hg & Ha). rewrite Hq, Hg, Hus.
        destruct (update_loop_step q g us h (λ d, ∃ k, k ≠ "_id"%string ∧ field k (update_doc E U us d).1 ≠ field k d) _ _ Ha)
          as (r & r' & n & m & -> & -> & Hrr & Hle & Heq & Hids).
        { intros d d' Hd Hqd Hs. destruct (update_apply u us h true f s d d' Hus Hh Hall) as (e & e' & b & He & He' & Hee & Hid & Hb); [|done|].
          - split; [done|]. by apply (selects_iff f q).
          - exists e, e', b. rewrite He. done. }
        split; [|split].
        * destruct Hinv as (Hn & Hs & Hused). split; [done|]. split; [done|]. cbn [fst items]. intros x Hx.
          destruct (Hids x Hx) as (y & Hy & ->). by apply Hused.
        * by constructor.
        * intros Hch. constructor; [done|]. intros _. apply Heq. intros d Hd Hqd. apply (Hch us d); [done|].
          split; [done|]. by apply (selects_iff f q).
      + destruct (at_first used f s t Hinv Hf) as (q & g & Hq & Hg & [(Hm & Hm' & Hno)|(i & x & x' & Hm & Hm' & Hx & Hx' & Hsim & Hfx & Hnn)]);
          rewrite Hq, Hg, Hus, Hm, Hm'.
        * apply sim_exact; [done|by constructor].
        * destruct (update_apply u us h false f s x x' Hus Hh Hall Hfx Hsim) as (e & e' & b & He & He' & Hee & Hid & Hb).
          rewrite Hx, Hx', He, He'. split; [by eapply inv_insert|]. split; [apply same_count; [by destruct b; auto|done]|].
          intros Hch. apply same_count; [by destruct b; auto|]. intros _. rewrite Hb; [done|]. specialize (Hch us x eq_refl Hfx). by rewrite He in Hch.
    - apply simulated_upsert; done.
    - apply simulated_upsert; done.
    - intros (-> & Hf & d & (Ha & Hb & Hd) & Hup & Hid). unfold replace_one. rewrite Hb, Hup.
      destruct (at_first used f s t Hinv Hf) as (q & g & Hq & Hg & [(Hm & Hm' & Hno)|(i & x & x' & Hm & Hm' & Hx & Hx' & Hsim & Hfx & Hnn)]);
          rewrite Hq, Hg, Hm, Hm'.
      + apply sim_exact; [done|by constructor].
      + rewrite Hx'. destruct Hinv as (Hn & Hs & Hused). destruct (Hused x') as (v & Hv & Hin); [by eapply elem_of_list_lookup_2|].
        assert (∃ e, m_replacement x' d = Some e ∧ sim d e ∧ field "_id" e = field "_id" x') as (e & -> & He & Hide).
        { unfold m_replacement. rewrite Hv. destruct (Hid x Hfx) as [Hn'|Heq].
          - rewrite Hn'. eexists. split; [done|]. split; [|done]. intros k. destruct (decide (k = "_id"%string)) as [->|Hk]; [by right|].
            left. simpl. by rewrite bool_decide_eq_false_2 by congruence.
          - destruct (field "_id" d) as [w|] eqn:Hw.
            + destruct (Hsim "_id"%string) as [H|[_ H]]; [|congruence]. rewrite (proj2 (same_val_true v w)) by congruence.
              eexists. split; [done|]. split; [apply sim_eq; intros k; by rewrite field_id_first|]. rewrite field_id_first. congruence.
            + eexists. split; [done|]. split; [|done]. intros k. destruct (decide (k = "_id"%string)) as [->|Hk]; [by right|].
              left. simpl. by rewrite bool_decide_eq_false_2 by congruence. }
        apply sim_exact; [|by constructor]. by apply (inv_insert used s t i d e x').
    - done.
  Qed.

  Lemma simulated_all (HS : ∀ d, s_order S d ≡ₚ d) cs used s : portable_all E U C S used s cs → ∀ t, inv used s t →
    let x := runs (aexec E U C) s cs in let y := runs (mexec C S) t cs in
    Forall2 sim (items x.1) (items y.1) ∧ Forall2 (same_reply false) x.2 y.2 ∧
    (changing_all E U C s cs → Forall2 (same_reply true) x.2 y.2).
  Proof using Type.
    induction 1 as [used s|used s c cs used' Hc Hcs IH]; intros t Hinv; cbn [runs].
    - split; [apply Hinv|]. split; [constructor|]. intros _. constructor.
    - pose proof (simulated_step HS used s t c used' Hinv Hc) as (Hinv' & Hr & Hr').
      destruct (aexec E U C s c) as [s1 r1] eqn:Hs1, (mexec C S t c) as [t1 r1'] eqn:Ht1. simpl in *.
      specialize (IH t1 Hinv'). destruct (runs (aexec E U C) s1 cs), (runs (mexec C S) t1 cs). simpl in *.
      destruct IH as (Hi & Hrs & Hch). split; [done|]. split; [by constructor|].
      intros Hall. inversion Hall; subst. rewrite Hs1 in *. constructor; auto.
  Qed.
End proof.

(** ** Queries cannot tell such documents apart *)
Lemma reach_sim p d d' w : p ≠ [] → sim d d' → head p ≠ Some (Key "_id"%string) ∨ field "_id" d = field "_id" d' →
  reach true p (VDoc d) w ↔ reach true p (VDoc d') w.
Proof.
  destruct p as [|s p]; [done|]. intros _ Hs Hp.
  assert (∀ v, step true s (VDoc d) v ↔ step true s (VDoc d') v) as Hstep.
  { assert (∀ k, s = Key k → field k d = field k d') as Hf.
    { intros k ->. destruct (Hs k) as [|[-> _]]; [done|]. destruct Hp as [Hp|]; [|done]. by destruct Hp. }
    intros v. split; inversion 1; subst; apply step_field; specialize (Hf k eq_refl); congruence. }
  split; inversion 1; subst; econstructor; try done; by apply Hstep.
Qed.
Section queries.
  Context (E : env) (d d' : doc).
  Lemma sat_sim (Hs : sim d d') q : wf_query E q → avoids_id q ∨ field "_id" d = field "_id" d' →
    sat E q (VDoc d) ↔ sat E q (VDoc d').
  Proof using Type.
    assert (∀ p w, wf_path p → head p ≠ Some (Key "_id"%string) ∨ field "_id" d = field "_id" d' →
      reach true p (VDoc d) w ↔ reach true p (VDoc d') w) as Hreach.
    { intros p w (Hp & _) H. by apply reach_sim. }
    assert (∀ qs, Forall (λ q, wf_query E q → avoids_id q ∨ field "_id" d = field "_id" d' → sat E q (VDoc d) ↔ sat E q (VDoc d')) qs →
      (fix go (qs : list query) := match qs with [] => True | q :: qs => wf_query E q ∧ go qs end) qs →
      (fix go (qs : list query) := match qs with [] => True | q :: qs => avoids_id q ∧ go qs end) qs ∨ field "_id" d = field "_id" d' →
      (fix go (qs : list query) (v : val) := match qs with [] => True | q :: qs => sat E q v ∧ go qs v end) qs (VDoc d) ↔
      (fix go (qs : list query) (v : val) := match qs with [] => True | q :: qs => sat E q v ∧ go qs v end) qs (VDoc d')) as Hall.
    { induction 1 as [|q0 qs Hq _ IH]; [done|]. intros [Hw Hws] Ha. rewrite Hq, IH by tauto. done. }
    induction q as [p l|p ls|p ops|p ls|p qs IH|qss IH|qss IH|qss IH|qs IH] using query_ind'; intros Hw Ha; cbn [wf_query avoids_id] in Hw, Ha; cbn [sat].
    - destruct Hw as [Hp _]. by setoid_rewrite (λ w, Hreach p w Hp Ha).
    - destruct Hw as [Hp _]. by setoid_rewrite (λ w, Hreach p w Hp Ha).
    - destruct Hw as [Hp _]. by setoid_rewrite (λ w, Hreach p w Hp Ha).
    - destruct Hw as [Hp _]. by setoid_rewrite (λ w, Hreach p w Hp Ha).
    - destruct Hw as [Hp _]. by setoid_rewrite (λ w, Hreach p w Hp Ha).
    - induction IH as [|qs qss Hqs _ IH]; [done|]. destruct Hw as [Hw Hws]. rewrite IH by tauto. rewrite Hall by tauto. done.
    - apply or_iff_compat_l. induction IH as [|qs qss Hqs _ IH]; [done|]. destruct Hw as [Hw Hws]. rewrite IH by tauto. rewrite Hall by tauto. done.
    - apply not_iff_compat, or_iff_compat_l. induction IH as [|qs qss Hqs _ IH]; [done|]. destruct Hw as [Hw Hws]. rewrite IH by tauto.
      rewrite Hall by tauto. done.
    - apply not_iff_compat. by apply Hall.
  Qed.
  Lemma holds_sim (Hs : sim d d') qs : Forall (wf_query E) qs → Forall avoids_id qs ∨ field "_id" d = field "_id" d' →
    holds E qs d ↔ holds E qs d'.
  Proof using Type.
    intros Hw Ha. unfold holds, sats. induction qs as [|q qs IH]; [done|]. rewrite !list.Forall_cons in *.
    rewrite sat_sim by tauto. rewrite IH by tauto. done.
  Qed.
End queries.

Lemma understood E S qs s : Forall (wf_query E) qs →
  (∃ g, s_match S (map query_bson qs) = Some g ∧ ∀ d, g d = true ↔ holds E qs d) →
  (∀ d, d ∈ items s → Forall avoids_id qs ∨ ∃ v, field "_id" d = Some v) →
  filter_agrees E S (map query_bson qs) s.
Proof.
  intros Hw (g & Hg & HgP) Hid. destruct (parse_qs E qs Hw) as (q & Hq & Hgood). exists q, g. split; [done|]. split; [done|].
  intros d d' Hd Hs. destruct (Hgood d) as (b & Hb & HP). rewrite Hb. f_equal. apply eq_true_iff_eq. rewrite HP, HgP.
  apply holds_sim; [done|done|]. destruct (Hid d Hd) as [|[v Hv]]; [by left|]. right. destruct (Hs "_id"%string) as [|[_ ?]]; congruence.
Qed.
