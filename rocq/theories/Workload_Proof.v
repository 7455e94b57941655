From Coq Require Import ZifyBool ZifyNat ZifyN Lia.
From Verif Require Import Retry_Model Workload_Model Workload_Spec.
Ltac Zify.zify_post_hook ::= Z.div_mod_to_equations.

(** ** Slots *)
Open Scope Z_scope.
Definition expand (apis : list api) : list nat := flat_map (λ a, replicate (Z.to_nat (a_prop a)) (a_fn a)) apis.

Lemma fill_seq (m : gmap Z nat) last f k n j :
  fold_left (λ m i, <[last + Z.of_nat i := f]> m) (seq j k) m !! n =
  if bool_decide (last + Z.of_nat j ≤ n < last + Z.of_nat j + Z.of_nat k) then Some f else m !! n.
Proof.
  revert m j. induction k as [|k IH]; intros m j.
  - cbn [seq fold_left]. rewrite bool_decide_false; [done|lia].
  - cbn [seq fold_left]. rewrite IH. destruct (decide (n = last + Z.of_nat j)) as [->|Hne].
    + rewrite lookup_insert, bool_decide_false, bool_decide_true; [done|lia|lia].
    + rewrite lookup_insert_ne by done. repeat case_bool_decide; done || lia.
Qed.
Lemma fill_lookup m last a n :
  fill m last a !! n =
  if bool_decide (last ≤ n < last + Z.of_nat (Z.to_nat (a_prop a))) then Some (a_fn a) else m !! n.
Proof. unfold fill. rewrite fill_seq. repeat case_bool_decide; done || lia. Qed.

Lemma fill_all_lookup m last apis n :
  fill_all m last apis !! n =
  if bool_decide (last ≤ n < last + Z.of_nat (length (expand apis)))
  then expand apis !! Z.to_nat (n - last) else m !! n.
Proof.
  revert m last. induction apis as [|a apis IH]; intros m last.
  - simpl. rewrite bool_decide_false; [done|lia].
  - cbn [fill_all expand flat_map]. fold (expand apis). rewrite IH, app_length, replicate_length, fill_lookup.
    repeat case_bool_decide; try lia; try done.
    + rewrite lookup_app_r by (rewrite replicate_length; lia). rewrite replicate_length. f_equal. lia.
    + rewrite lookup_app_l by (rewrite replicate_length; lia). rewrite lookup_replicate_2 by lia. done.
Qed.

Lemma count_seq (l : list nat) f j :
  length (List.filter (λ n, bool_decide (l !! (n - j)%nat = Some f)) (seq j (length l))) =
  length (List.filter (λ x, bool_decide (x = f)) l).
Proof.
  revert j. induction l as [|x l IH]; intros j; [done|]. cbn [length seq List.filter].
  replace (j - j)%nat with 0%nat by lia. cbn [lookup list_lookup].
  assert (List.filter (λ n, bool_decide ((x :: l) !! (n - j)%nat = Some f)) (seq (S j) (length l)) =
          List.filter (λ n, bool_decide (l !! (n - S j)%nat = Some f)) (seq (S j) (length l))) as E.
  { apply List.filter_ext_in. intros a [Ha _]%in_seq. replace (a - j)%nat with (S (a - S j)) by lia. done. }
  rewrite E. destruct (decide (x = f)) as [->|Hn].
  - rewrite !bool_decide_true by done. simpl. by rewrite IH.
  - rewrite !bool_decide_false by congruence. by rewrite IH.
Qed.

Lemma filter_replicate_count k (x f : nat) :
  length (List.filter (λ y, bool_decide (y = f)) (replicate k x)) = if bool_decide (x = f) then k else 0%nat.
Proof. induction k as [|k IH]; simpl; [by case_bool_decide|]. case_bool_decide; simpl; lia. Qed.

Lemma count_expand apis f :
  Forall (λ a, 0 ≤ a_prop a) apis →
  Z.of_nat (length (List.filter (λ x, bool_decide (x = f)) (expand apis))) = configured apis f.
Proof.
  induction 1 as [|a apis Ha Hapis IH]; [done|]. cbn [expand flat_map]. fold (expand apis).
  rewrite List.filter_app, app_length, filter_replicate_count. cbn [configured foldr]. fold (configured apis f).
  case_bool_decide; lia.
Qed.
Lemma length_expand apis : Forall (λ a, 0 ≤ a_prop a) apis → Z.of_nat (length (expand apis)) = total apis.
Proof.
  induction 1 as [|a apis Ha Hapis IH]; [done|]. cbn [expand flat_map total foldr]. fold (expand apis). fold (total apis).
  rewrite app_length, replicate_length. lia.
Qed.

Lemma total_perm l l' : l ≡ₚ l' → total l = total l'.
Proof. induction 1; simpl in *; lia. Qed.
Lemma configured_perm f l l' : l ≡ₚ l' → configured l f = configured l' f.
Proof. induction 1; simpl in *; lia. Qed.

Lemma wrap64_small z : - 2 ^ 63 ≤ z < 2 ^ 63 → wrap64 z = z.
Proof. unfold wrap64. lia. Qed.
Lemma total_nonneg l : Forall (λ a, 0 ≤ a_prop a) l → 0 ≤ total l.
Proof. induction 1; simpl; lia. Qed.
Lemma is_valid_total apis :
  Forall (λ a, 0 ≤ a_prop a) apis → total apis < 2 ^ 63 → is_valid apis = true → total apis = 100.
Proof.
  intros Hn Hb. unfold is_valid. rewrite bool_decide_eq_true.
  assert (∀ acc, 0 ≤ acc → acc + total apis < 2 ^ 63 →
    fold_left (λ total a, wrap64 (total + a_prop a)) apis acc = acc + total apis) as H.
  { induction Hn as [|a apis Ha Hn IH]; intros acc H1 H2; simpl in *; [lia|].
    pose proof (total_nonneg _ Hn). rewrite wrap64_small by lia. rewrite IH by lia. lia. }
  rewrite H by lia. lia.
Qed.

Lemma slots_exact apis sorted :
  Forall (λ a, 0 ≤ a_prop a) apis → total apis < 2 ^ 63 → is_valid apis = true → sorted ≡ₚ apis →
  (∀ n, 0 ≤ n < 100 → ∃ a, a ∈ apis ∧ dispatch (init_prop_map sorted) n = Some (a_fn a)) ∧
  (∀ f, slots (init_prop_map sorted) f = configured apis f).
Proof.
  intros Hn Hb Hv Hp. pose proof (is_valid_total _ Hn Hb Hv) as Ht.
  assert (Forall (λ a, 0 ≤ a_prop a) sorted) as Hns by (by rewrite Hp).
  pose proof (length_expand sorted Hns) as Hl. rewrite (total_perm _ _ Hp), Ht in Hl.
  assert (∀ n, 0 ≤ n < 100 → dispatch (init_prop_map sorted) n = expand sorted !! Z.to_nat n) as Hd.
  { intros n Hr. unfold dispatch, init_prop_map. rewrite fill_all_lookup, bool_decide_true by lia.
    f_equal. lia. }
  split.
  - intros n Hr. rewrite Hd by done. destruct (lookup_lt_is_Some_2 (expand sorted) (Z.to_nat n)) as [x Hx]; [lia|].
    rewrite Hx. apply elem_of_list_lookup_2, elem_of_list_In, in_flat_map in Hx as (a&Ha&Hx).
    exists a. split; [by rewrite <- Hp; apply elem_of_list_In|].
    apply elem_of_list_In, elem_of_replicate in Hx as [-> _]. done.
  - intros f. unfold slots. rewrite <- (configured_perm f _ _ Hp), <- (count_expand _ _ Hns).
    rewrite <- (count_seq _ f 0). replace (length (expand sorted)) with 100%nat by lia. do 2 f_equal.
    apply List.filter_ext_in. intros a [_ Ha]%in_seq. rewrite Hd by lia. rewrite Nat2Z.id, Nat.sub_0_r. done.
Qed.
Close Scope Z_scope.

(** ** RunOpenLoop *)
Definition unsent (ph : reqphase) : list nat := match ph with QSending st => [st] | _ => [] end.
Definition pending (ph : reqphase) : nat := match ph with QDone _ => 0 | _ => 1 end.

Lemma flat_map_insert {A B} (f : A → list B) (l : list A) i x y :
  l !! i = Some y → flat_map f (<[i := x]> l) ++ f y ≡ₚ flat_map f l ++ f x.
Proof.
  revert i. induction l as [|a l IH]; intros [|i] H; simpl in *; try done.
  - injection H as ->. rewrite (Permutation_app_comm (f x ++ flat_map f l)), (Permutation_app_comm (f y ++ flat_map f l)).
    rewrite !app_assoc. apply Permutation_app_tail, Permutation_app_comm.
  - specialize (IH _ H). by rewrite <- !app_assoc, IH.
Qed.
Lemma sum_insert {A} (f : A → nat) (l : list A) i x y :
  l !! i = Some y → sum_list_with f (<[i := x]> l) + f y = sum_list_with f l + f x.
Proof.
  revert i. induction l as [|a l IH]; intros [|i] H; simpl in *; try done.
  - injection H as ->. lia.
  - specialize (IH _ H). lia.
Qed.
Lemma sum_app {A} (f : A → nat) l1 l2 : sum_list_with f (l1 ++ l2) = sum_list_with f l1 + sum_list_with f l2.
Proof. induction l1; simpl; lia. Qed.

Definition before_wait (m : mainphase) : bool := match m with MSleep | MStop => true | _ => false end.
Definition after_wait (m : mainphase) : bool := match m with MClose | MWaitDone | MReturned => true | _ => false end.
Definition after_close (m : mainphase) : bool := match m with MWaitDone | MReturned => true | _ => false end.
Definition is_returned (m : mainphase) : bool := match m with MReturned => true | _ => false end.

Definition einv (stats0 : list nat) (e : eng) : Prop :=
  (e_stats e ++ e_chan e) ++ flat_map unsent (e_reqs e) ≡ₚ stats0 ++ flat_map produced (e_reqs e) ∧
  e_wg e = sum_list_with pending (e_reqs e) ∧
  e_dispatcher e = before_wait (e_main e) ∧
  (after_wait (e_main e) = true → e_wg e = 0) ∧
  e_closed e = after_close (e_main e) ∧
  (e_collector e = false → e_chan e = [] ∧ e_closed e = true) ∧
  (is_returned (e_main e) = true → e_collector e = false) ∧
  e_panic e = false.

Lemma all_done reqs : sum_list_with pending reqs = 0 → Forall finished reqs.
Proof. induction reqs as [|ph reqs IH]; simpl; intros H; constructor; [destruct ph; simpl in *; done || lia|apply IH; lia]. Qed.
Lemma done_unsent reqs : Forall finished reqs → flat_map unsent reqs = [].
Proof. induction 1 as [|ph reqs Hp _ IH]; simpl; [done|]. rewrite IH. by destruct ph. Qed.
Lemma done_produced reqs : Forall finished reqs → length (flat_map produced reqs) = length reqs.
Proof. induction 1 as [|ph reqs Hp _ IH]; simpl; [done|]. rewrite app_length, IH. by destruct ph. Qed.

Lemma sum_elem {A} (f : A → nat) l i y : l !! i = Some y → f y ≤ sum_list_with f l.
Proof. revert i. induction l as [|a l IH]; intros [|i] H; simpl in *; try done; [injection H as ->; lia|]. specialize (IH _ H). lia. Qed.

Lemma einv_step s0 e m : einv s0 e → einv s0 (estep e m).
Proof.
  intros Hinv. pose proof Hinv as (H1&H2&H3&H4&H5&H6&H7&H8).
  destruct m as [|r st|r|r| |]; simpl.
  - destruct (e_dispatcher e) eqn:Hd; [|done].
    unfold einv; simpl. rewrite !flat_map_app, sum_app. simpl. rewrite !app_nil_r.
    split_and!; try done; try lia. intros Ha. destruct (e_main e); simpl in *; done.
  - destruct (e_reqs e !! r) as [[]|] eqn:Hr; try done.
    pose proof (flat_map_insert unsent _ _ (QSending st) _ Hr) as P1. pose proof (flat_map_insert produced _ _ (QSending st) _ Hr) as P2.
    pose proof (sum_insert pending _ _ (QSending st) _ Hr) as P3. simpl in *. rewrite !app_nil_r in P1, P2.
    unfold einv; simpl. split_and!; try done; try lia. by rewrite P1, P2, !app_assoc, H1.
  - destruct (e_reqs e !! r) as [[]|] eqn:Hr; try done.
    pose proof (flat_map_insert unsent _ _ (QSent st) _ Hr) as P1. pose proof (flat_map_insert produced _ _ (QSent st) _ Hr) as P2.
    pose proof (sum_insert pending _ _ (QSent st) _ Hr) as P3. simpl in *. apply Permutation_app_inv_r in P2. rewrite app_nil_r in P1.
    pose proof (sum_elem pending _ _ _ Hr) as P4. simpl in P4.
    destruct (e_closed e) eqn:Hcl.
    { exfalso. rewrite H5 in Hcl. assert (after_wait (e_main e) = true) as Ha by (by destruct (e_main e)).
      specialize (H4 Ha). lia. }
    case_bool_decide as Hlen; [|destruct (e_collector e && bool_decide (e_chan e = [])) eqn:Hcc; [|done]].
    + unfold einv; simpl. split_and!; try done; try lia.
      rewrite P2, <- H1, <- P1. rewrite <- !app_assoc. do 2 apply Permutation_app_head. apply Permutation_app_comm.
    + apply andb_true_iff in Hcc as [Hc He%bool_decide_eq_true].
      unfold einv; simpl. rewrite He, Hc in *. split_and!; try done; try lia.
      rewrite P2, <- H1, <- P1, !app_nil_r. rewrite <- !app_assoc. apply Permutation_app_head. apply Permutation_app_comm.
  - destruct (e_reqs e !! r) as [[]|] eqn:Hr; try done.
    pose proof (flat_map_insert unsent _ _ (QDone st) _ Hr) as P1. pose proof (flat_map_insert produced _ _ (QDone st) _ Hr) as P2.
    pose proof (sum_insert pending _ _ (QDone st) _ Hr) as P3. simpl in *. apply Permutation_app_inv_r in P2. rewrite !app_nil_r in P1.
    unfold einv; simpl. split_and!; try done; try lia.
    by rewrite P1, P2.
  - destruct (e_collector e) eqn:Hc; [|done]. destruct (e_chan e) as [|st rest] eqn:Hch.
    + destruct (e_closed e) eqn:Hcl; [|done]. unfold einv; simpl. split_and!; try done.
    + unfold einv; simpl. split_and!; try done. by rewrite <- (app_assoc (e_stats e) [st]).
  - destruct (e_main e) eqn:Hm; simpl in *.
    + unfold einv; simpl. split_and!; done.
    + destruct (e_dispatcher e); [|done]. unfold einv; simpl. split_and!; done.
    + case_bool_decide; [|done]. unfold einv; simpl. split_and!; done.
    + unfold einv; simpl. split_and!; try done; try by apply H4. intros Hc. by destruct (H6 Hc).
    + destruct (e_collector e) eqn:Hc; [done|]. unfold einv; simpl. rewrite Hc. split_and!; try done; by apply H4.
    + done.
Qed.
Lemma einv_start cap s0 : einv s0 (start_engine cap s0).
Proof. unfold einv, start_engine; simpl. by rewrite !app_nil_r. Qed.
Lemma einv_run cap s0 ms : einv s0 (erun (start_engine cap s0) ms).
Proof.
  pose proof (einv_start cap s0) as H. revert H. generalize (start_engine cap s0).
  induction ms as [|m ms IH]; intros e H; simpl; [done|]. by apply IH, einv_step.
Qed.

Lemma all_accounted cap s0 ms : let e := erun (start_engine cap s0) ms in
  e_main e = MReturned → Forall finished (e_reqs e) ∧ e_stats e ≡ₚ s0 ++ flat_map produced (e_reqs e) ∧
  length (e_stats e) = length s0 + length (e_reqs e).
Proof.
  intros e Hm. destruct (einv_run cap s0 ms) as (H1&H2&_&H4&H5&H6&H7&_). fold e in H1, H2, H4, H5, H6, H7.
  rewrite Hm in *. specialize (H4 eq_refl). specialize (H7 eq_refl). destruct (H6 H7) as [Hch _].
  rewrite H4 in H2. symmetry in H2. apply all_done in H2. rewrite Hch, (done_unsent _ H2), !app_nil_r in H1.
  split_and!; [done|done|]. rewrite H1, app_length, (done_produced _ H2). done.
Qed.
Lemma no_panic cap s0 ms : e_panic (erun (start_engine cap s0) ms) = false.
Proof. apply (einv_run cap s0 ms). Qed.

(** ** Termination once the dispatcher has stopped *)
Definition reqw (ph : reqphase) : nat := match ph with QRunning => 4 | QSending _ => 3 | QSent _ => 1 | QDone _ => 0 end.
Definition mainw (m : mainphase) : nat :=
  match m with MSleep => 5 | MStop => 4 | MWait => 3 | MClose => 2 | MWaitDone => 1 | MReturned => 0 end.
Definition emeasure (e : eng) : nat :=
  sum_list_with reqw (e_reqs e) + length (e_chan e) + (if e_collector e then 1 else 0) + mainw (e_main e).

Lemma measure_step s0 e m : einv s0 e → m ≠ ETick → estep e m = e ∨ emeasure (estep e m) < emeasure e.
Proof.
  intros (_&H2&_&H4&H5&_&_&H8) Hm. destruct m as [|r st|r|r| |]; simpl; [done|..].
  - destruct (e_reqs e !! r) as [[]|] eqn:Hr; auto. right.
    pose proof (sum_insert reqw _ _ (QSending st) _ Hr) as P. unfold emeasure; simpl in *. lia.
  - destruct (e_reqs e !! r) as [[]|] eqn:Hr; auto.
    pose proof (sum_insert reqw _ _ (QSent st) _ Hr) as P. pose proof (sum_elem pending _ _ _ Hr) as P4. simpl in *.
    destruct (e_closed e) eqn:Hcl.
    { exfalso. rewrite H5 in Hcl. assert (after_wait (e_main e) = true) as Ha by (by destruct (e_main e)).
      specialize (H4 Ha). lia. }
    case_bool_decide; [|destruct (e_collector e && _); auto]; right; unfold emeasure; simpl; rewrite ?app_length; simpl; lia.
  - destruct (e_reqs e !! r) as [[]|] eqn:Hr; auto. right.
    pose proof (sum_insert reqw _ _ (QDone st) _ Hr) as P. unfold emeasure; simpl in *. lia.
  - destruct (e_collector e) eqn:Hc; auto. destruct (e_chan e) as [|st rest] eqn:Hch.
    + destruct (e_closed e); auto. right. unfold emeasure; simpl. rewrite Hc, Hch. simpl. lia.
    + right. unfold emeasure; simpl. rewrite Hc, Hch. simpl. lia.
  - destruct (e_main e) eqn:Hm'; auto.
    + right. unfold emeasure; simpl. rewrite Hm'. simpl. lia.
    + destruct (e_dispatcher e); auto. right. unfold emeasure; simpl. rewrite Hm'. simpl. lia.
    + case_bool_decide; auto. right. unfold emeasure; simpl. rewrite Hm'. simpl. lia.
    + right. unfold emeasure; simpl. rewrite Hm'. simpl. lia.
    + destruct (e_collector e) eqn:Hc; auto. right. unfold emeasure; simpl. rewrite Hm', Hc. simpl. lia.
Qed.

Lemma sum_pos {A} (f : A → nat) l : 0 < sum_list_with f l → ∃ i x, l !! i = Some x ∧ 0 < f x.
Proof.
  induction l as [|a l IH]; simpl; [lia|]. intros H. destruct (decide (0 < f a)); [by exists 0, a|].
  destruct IH as (i&x&?&?); [lia|]. by exists (S i), x.
Qed.

Lemma lt_ne (e e' : eng) : emeasure e' < emeasure e → e' ≠ e.
Proof. intros H ->. lia. Qed.

Lemma progress s0 e : einv s0 e → e_main e ≠ MReturned → ∃ m, m ≠ ETick ∧ estep e m ≠ e.
Proof.
  intros (H1&H2&H3&H4&H5&H6&H7&H8) Hr. destruct (e_main e) eqn:Hm; simpl in *.
  - exists EMain. split; [done|]. simpl. rewrite Hm. apply lt_ne. unfold emeasure; simpl. rewrite Hm. simpl. lia.
  - exists EMain. split; [done|]. simpl. rewrite Hm, H3. apply lt_ne. unfold emeasure; simpl. rewrite Hm. simpl. lia.
  - destruct (decide (e_wg e = 0)) as [H0|H0].
    { exists EMain. split; [done|]. simpl. rewrite Hm, bool_decide_true by done. apply lt_ne. unfold emeasure; simpl. rewrite Hm. simpl. lia. }
    destruct (sum_pos pending (e_reqs e)) as (r&ph&Hph&Hp); [lia|].
    assert (e_collector e = true) as Hc. { destruct (e_collector e) eqn:E; [done|]. destruct (H6 eq_refl). congruence. }
    destruct ph as [|st|st|st]; simpl in Hp; [| | |lia].
    + exists (EReturn r 0). split; [done|]. simpl. rewrite Hph. apply lt_ne. unfold emeasure; simpl.
      pose proof (sum_insert reqw _ _ (QSending 0) _ Hph) as P. simpl in P. lia.
    + destruct (e_chan e) as [|x rest] eqn:Hch.
      * exists (ESend r). split; [done|]. simpl. rewrite Hph, H5, Hch. pose proof (sum_insert reqw _ _ (QSent st) _ Hph) as P. simpl in P.
        case_bool_decide; simpl; [|rewrite Hc; simpl]; apply lt_ne; unfold emeasure; simpl; rewrite Hch; simpl; rewrite ?Hc; lia.
      * exists ECollect. split; [done|]. simpl. rewrite Hc, Hch. apply lt_ne. unfold emeasure; simpl. rewrite Hch, Hc. simpl. lia.
    + exists (EDone r). split; [done|]. simpl. rewrite Hph. apply lt_ne. unfold emeasure; simpl.
      pose proof (sum_insert reqw _ _ (QDone st) _ Hph) as P. simpl in P. lia.
  - exists EMain. split; [done|]. simpl. rewrite Hm. apply lt_ne. unfold emeasure; simpl. rewrite Hm. simpl. lia.
  - destruct (e_collector e) eqn:Hc.
    + exists ECollect. split; [done|]. simpl. rewrite Hc, H5. destruct (e_chan e) as [|x rest] eqn:Hch;
        apply lt_ne; unfold emeasure; simpl; rewrite Hch, Hc; simpl; lia.
    + exists EMain. split; [done|]. simpl. rewrite Hm, Hc. apply lt_ne. unfold emeasure; simpl. rewrite Hm. simpl. lia.
  - done.
Qed.

Lemma can_return_inv s0 e : einv s0 e → ∃ more, ETick ∉ more ∧ e_main (erun e more) = MReturned.
Proof.
  remember (emeasure e) as k eqn:Hk. revert e Hk. induction (lt_wf k) as [k _ IH]. intros e -> Hinv.
  destruct (decide (mainw (e_main e) = 0)) as [Hr|Hr].
  { exists []. split; [by intros ?%elem_of_nil|]. simpl. destruct (e_main e); simpl in *; done || lia. }
  destruct (progress s0 e Hinv) as (m&Hm&Hne); [intros E; rewrite E in Hr; done|].
  destruct (measure_step s0 e m Hinv Hm) as [?|Hlt]; [done|].
  destruct (IH _ Hlt _ eq_refl (einv_step _ _ m Hinv)) as (more&Ht&Hmore).
  exists (m :: more). split; [by intros [?|?]%elem_of_cons|done].
Qed.
Lemma can_return cap s0 ms : ∃ more, ETick ∉ more ∧ e_main (erun (erun (start_engine cap s0) ms) more) = MReturned.
Proof. eapply can_return_inv, einv_run. Qed.

(** Effective moves: every schedule from a state makes at most [emeasure] of them besides ticks. *)
Lemma bounded_moves s0 e ms :
  einv s0 e → ETick ∉ ms → (∀ ms1 m ms2, ms = ms1 ++ m :: ms2 → estep (erun e ms1) m ≠ erun e ms1) →
  length ms + emeasure (erun e ms) ≤ emeasure e.
Proof.
  revert e. induction ms as [|m ms IH]; intros e Hi Ht Heff; simpl; [lia|].
  apply not_elem_of_cons in Ht as [Hm Ht].
  destruct (measure_step s0 e m Hi) as [E|Hlt]; [done|by destruct (Heff [] m ms)|].
  assert (length ms + emeasure (erun (estep e m) ms) ≤ emeasure (estep e m)); [|unfold erun in *; lia].
  apply IH; [by apply einv_step|done|]. intros ms1 m' ms2 ->. apply (Heff (m :: ms1) m' ms2). done.
Qed.
