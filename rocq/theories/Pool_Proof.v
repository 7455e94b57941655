From Coq Require Import ZifyBool ZifyNat ZifyN Lia.
From Verif Require Import Pool_Model Pool_Spec.

Lemma flat_map_insert {A B} (f : A → list B) (l : list A) i x y :
  l !! i = Some y → flat_map f (<[i := x]> l) ++ f y ≡ₚ flat_map f l ++ f x.
Proof.
  revert i. induction l as [|a l IH]; intros [|i] H; simpl in *; try done.
  - injection H as ->. rewrite (Permutation_app_comm (f x ++ flat_map f l)), (Permutation_app_comm (f y ++ flat_map f l)).
    rewrite !app_assoc. apply Permutation_app_tail, Permutation_app_comm.
  - specialize (IH _ H). by rewrite <- !app_assoc, IH.
Qed.
Lemma sum_insert {A} (f : A → nat) (l : list A) i x y :
  l !! i = Some y → sum_list_with f (<[i := x]> l) + f y = sum_list_with f l + f x.
Proof.
  revert i. induction l as [|a l IH]; intros [|i] H; simpl in *; try done.
  - injection H as ->. lia.
  - specialize (IH _ H). lia.
Qed.
Lemma sum_lookup {A} (f : A → nat) (l : list A) i y : l !! i = Some y → f y ≤ sum_list_with f l.
Proof.
  revert i. induction l as [|a l IH]; intros [|i] H; simpl in *; try done.
  - injection H as ->. lia.
  - specialize (IH _ H). lia.
Qed.

Definition wb (ph : pphase) : nat := if is_building ph then 1 else 0.
Definition wh (ph : pphase) : nat := length (in_hand ph).
Definition wa (ph : pphase) : nat := match ph with PGot _ | PGotW _ | PPushing _ => 1 | _ => 0 end.
Definition ww (ph : pphase) : nat := match ph with PWaiting | PGotW _ | PLeaveW _ => 1 | _ => 0 end.
Notation sw f p := (sum_list_with f (p_threads p)).

Lemma all_clients_change p p' t old new extra :
  p_threads p !! t = Some old → p_threads p' = <[t := new]> (p_threads p) →
  p_chan p' ++ in_hand new ≡ₚ p_chan p ++ in_hand old ++ extra →
  all_clients p' ≡ₚ all_clients p ++ extra.
Proof.
  intros Hold Hth Hch. apply (Permutation_app_inv_r (in_hand old)). unfold all_clients. rewrite Hth.
  rewrite <- !app_assoc. rewrite (flat_map_insert in_hand _ _ new _ Hold).
  rewrite (Permutation_app_comm (flat_map in_hand (p_threads p)) (in_hand new)), app_assoc, Hch.
  rewrite <- !app_assoc. apply Permutation_app_head.
  rewrite (app_assoc (in_hand old)), (Permutation_app_comm (in_hand old ++ extra)).
  apply Permutation_app_head, Permutation_app_comm.
Qed.

Definition pinv (cap : nat) (p : pool) : Prop :=
  p_cap p = cap ∧
  p_size p = length (p_chan p) + sw wh p + sw wb p ∧
  p_size p ≤ cap ∧
  NoDup (all_clients p) ∧ (∀ c, c ∈ all_clients p → c < p_next p) ∧
  p_avail p = Z.of_nat (length (p_chan p) + sw wa p) ∧
  p_waiting p = Z.of_nat (sw ww p) ∧
  (∀ t cur, p_threads p !! t = Some (PCas cur) → cur < cap).

Lemma insert_inv {A} (l : list A) i j x y :
  <[i := x]> l !! j = Some y → (j = i ∧ y = x) ∨ (i ≠ j ∧ l !! j = Some y).
Proof. intros [(->&->&?)|[? ?]]%list_lookup_insert_Some; auto. Qed.

(** A step that moves goroutine [t] from [old] to [new]. *)
Lemma pinv_change cap p p' t old new extra :
  pinv cap p → p_threads p !! t = Some old →
  p_threads p' = <[t := new]> (p_threads p) → p_cap p' = p_cap p →
  p_chan p' ++ in_hand new ≡ₚ p_chan p ++ in_hand old ++ extra →
  p_next p' = p_next p + length extra → (∀ c, c ∈ extra → c = p_next p) → length extra ≤ 1 →
  p_size p' + length (p_chan p) + wh old + wb old = p_size p + length (p_chan p') + wh new + wb new →
  p_size p' ≤ cap →
  (p_avail p' + Z.of_nat (length (p_chan p) + wa old) = p_avail p + Z.of_nat (length (p_chan p') + wa new))%Z →
  (p_waiting p' + Z.of_nat (ww old) = p_waiting p + Z.of_nat (ww new))%Z →
  (∀ cur, new = PCas cur → cur < cap) →
  pinv cap p'.
Proof.
  intros (H1&H2&H3&H4&H5&H6&H7&H8) Hold Hth Hcap Hch Hnext Hex Hex1 Hsize Hle Hav Hwt Hcas.
  pose proof (all_clients_change p p' t old new extra Hold Hth Hch) as Hperm.
  pose proof (sum_insert wh _ _ new _ Hold) as S1. pose proof (sum_insert wb _ _ new _ Hold) as S2.
  pose proof (sum_insert wa _ _ new _ Hold) as S3. pose proof (sum_insert ww _ _ new _ Hold) as S4.
  unfold pinv. rewrite Hth, Hcap. split_and!.
  - done.
  - lia.
  - done.
  - rewrite Hperm. apply NoDup_app. split_and!; [done| |].
    + intros c Hc Hc'. apply Hex in Hc'. specialize (H5 c Hc). lia.
    + destruct extra as [|a [|b extra]]; simpl in *; [constructor|apply NoDup_singleton|lia].
  - intros c. rewrite Hperm, elem_of_app. intros [Hc|Hc].
    + specialize (H5 c Hc). lia.
    + specialize (Hex c Hc). assert (extra ≠ []) by (intros ->; by apply elem_of_nil in Hc).
      destruct extra; simpl in *; [done|lia].
  - lia.
  - lia.
  - intros t' cur [[-> Hc]|[_ Hc]]%insert_inv; [by apply Hcas|by eapply H8].
Qed.

Lemma pinv_ext cap p p' :
  pinv cap p → p_cap p' = p_cap p → p_chan p' = p_chan p → p_size p' = p_size p → p_avail p' = p_avail p →
  p_waiting p' = p_waiting p → p_next p' = p_next p → p_threads p' = p_threads p → pinv cap p'.
Proof.
  intros H E1 E2 E3 E4 E5 E6 E7. unfold pinv, all_clients in *. by rewrite E1, E2, E3, E4, E5, E6, E7.
Qed.

Ltac pchange Hold new extra :=
  match type of Hold with p_threads ?p !! ?t = Some ?old =>
    eapply (pinv_change _ p _ t old new extra); eauto; simpl;
    try (by intros ? ?%elem_of_nil); try (unfold wh, wb; simpl; lia); try lia; try done
  end.

Lemma pinv_step cap p m : pinv cap p → pinv cap (pstep p m).
Proof.
  intros Hinv. pose proof Hinv as (H1&H2&H3&H4&H5&H6&H7&H8).
  destruct m as [t|t|t ok|t|t|t]; simpl.
  - destruct (p_threads p !! t) as [[]|] eqn:Hold; try done. pchange Hold PEnter (@nil nat).
  - destruct (p_threads p !! t) as [[]|] eqn:Hold; try done.
    + destruct (p_chan p) as [|c l] eqn:Hc.
      * pchange Hold PReadSize (@nil nat).
      * pchange Hold (PGot c) (@nil nat); rewrite ?Hc; simpl; try lia; try (unfold wh, wb; simpl; lia).
        rewrite app_nil_r. rewrite Permutation_app_comm. done.
    + case_bool_decide.
      * pchange Hold (PCas (p_size p)) (@nil nat). intros cur [= <-]. lia.
      * pchange Hold PPreWait (@nil nat).
    + case_bool_decide.
      * specialize (H8 _ _ Hold). pchange Hold PBuilding (@nil nat).
      * pchange Hold PReadSize (@nil nat).
    + pchange Hold (PHold c) (@nil nat).
    + pchange Hold PWaiting (@nil nat).
    + destruct (p_chan p) as [|c l] eqn:Hc; [done|].
      pchange Hold (PGotW c) (@nil nat); rewrite ?Hc; simpl; try lia; try (unfold wh, wb; simpl; lia).
      rewrite app_nil_r. rewrite Permutation_app_comm. done.
    + pchange Hold (PLeaveW (Some c)) (@nil nat).
    + destruct c as [c|].
      * pchange Hold (PHold c) (@nil nat).
      * pchange Hold PIdle (@nil nat).
    + case_bool_decide; [|done]. pchange Hold PIdle (@nil nat).
      * by rewrite app_nil_r.
      * rewrite app_length. unfold wh, wb. simpl. lia.
      * rewrite app_length. simpl. lia.
  - destruct (p_threads p !! t) as [[]|] eqn:Hold; try done. destruct ok.
    + pchange Hold (PHold (p_next p)) [p_next p]. intros c ->%elem_of_list_singleton. done.
    + pose proof (sum_lookup wb _ _ _ Hold) as Hb. unfold wb in Hb at 1. simpl in Hb.
      pchange Hold PIdle (@nil nat).
  - case_bool_decide; [|done]. destruct (p_threads p !! t) as [[]|] eqn:Hold; try done.
    + pchange Hold PIdle (@nil nat).
    + pchange Hold (PLeaveW None) (@nil nat).
  - destruct (p_threads p !! t) as [[]|] eqn:Hold; try done. pchange Hold (PPushing c) (@nil nat).
  - by eapply pinv_ext.
Qed.

Lemma sum_replicate_zero {A} (f : A → nat) n x : f x = 0 → sum_list_with f (replicate n x) = 0.
Proof. intros Hx. induction n; simpl; lia. Qed.
Lemma pinv_new cap n : pinv cap (new_pool cap n).
Proof.
  assert (Hfm : flat_map in_hand (replicate n PIdle) = []) by (induction n; simpl; auto).
  unfold pinv, new_pool, all_clients; simpl. rewrite Hfm.
  rewrite !sum_replicate_zero by done. split_and!; try done; try lia.
  - constructor.
  - intros c Hc. by apply elem_of_nil in Hc.
  - intros t cur [Hc _]%lookup_replicate. done.
Qed.
Lemma pinv_run_from cap p ms : pinv cap p → pinv cap (prun p ms).
Proof. revert p. induction ms as [|m ms IH]; intros p Hp; simpl; [done|]. by apply IH, pinv_step. Qed.
Lemma pinv_run cap n ms : pinv cap (prun (new_pool cap n) ms).
Proof. apply pinv_run_from, pinv_new. Qed.

Lemma sum_wb p : sw wb p = building p.
Proof.
  unfold building. induction (p_threads p) as [|a l IH]; simpl; [done|].
  unfold wb at 1. destruct (is_building a); simpl; lia.
Qed.
Lemma sum_wh p : sw wh p = length (flat_map in_hand (p_threads p)).
Proof. induction (p_threads p) as [|a l IH]; simpl; [done|]. rewrite app_length. unfold wh at 1. lia. Qed.

Lemma pool_limit cap n ms : let p := prun (new_pool cap n) ms in length (all_clients p) + building p ≤ cap.
Proof.
  intros p. destruct (pinv_run cap n ms) as (_&H2&H3&_). fold p in H2, H3.
  unfold all_clients. rewrite app_length, <- sum_wb, <- sum_wh. lia.
Qed.
Lemma pool_nodup cap n ms : NoDup (all_clients (prun (new_pool cap n) ms)).
Proof. apply (pinv_run cap n ms). Qed.

Lemma pool_push_room cap n ms t c : let p := prun (new_pool cap n) ms in
  p_threads p !! t = Some (PPushing c) → p_threads (pstep p (MRun t)) !! t = Some PIdle ∧ p_chan (pstep p (MRun t)) = p_chan p ++ [c].
Proof.
  intros p Ht. destruct (pinv_run cap n ms) as (H1&H2&H3&_). fold p in H1, H2, H3.
  pose proof (sum_lookup wh _ _ _ Ht) as Hw. unfold wh in Hw at 1. simpl in Hw.
  simpl. rewrite Ht. rewrite bool_decide_true by lia. simpl.
  split; [|done]. apply list_lookup_insert. by eapply lookup_lt_Some.
Qed.

Lemma sum_zero {A} (f : A → nat) l : (∀ x, x ∈ l → f x = 0) → sum_list_with f l = 0.
Proof. induction l as [|a l IH]; intros H; simpl; [done|]. rewrite IH, H; [lia|left|]. intros. apply H. by right. Qed.
Lemma pool_counters cap n ms : let p := prun (new_pool cap n) ms in
  quiescent p → p_avail p = Z.of_nat (length (p_chan p)) ∧ p_waiting p = 0%Z ∧
  p_size p = length (all_clients p).
Proof.
  intros p Hq. destruct (pinv_run cap n ms) as (_&H2&_&_&_&H6&H7&_). fold p in H2, H6, H7.
  rewrite (sum_zero wa) in H6 by (intros x Hx; specialize (Hq x Hx); by destruct x).
  rewrite (sum_zero ww) in H7 by (intros x Hx; specialize (Hq x Hx); by destruct x).
  rewrite (sum_zero wb) in H2 by (intros x Hx; specialize (Hq x Hx); by destruct x).
  unfold all_clients. rewrite app_length, <- sum_wh. split_and!; lia.
Qed.

(** ** No build failure: a waiter means a full pool *)
Definition waits (ph : pphase) : Prop := ph = PPreWait ∨ ph = PWaiting.
Definition pfull (p : pool) : Prop := ∀ t ph, p_threads p !! t = Some ph → waits ph → p_size p = p_cap p.

Ltac pf Hfull :=
  let t' := fresh in let ph' := fresh in let Hl := fresh in let Hw := fresh in
  intros t' ph' Hl Hw; simpl in *; apply insert_inv in Hl as [[-> ->]|[_ Hl]];
  [try (by destruct Hw)|try (by eapply Hfull)].

Lemma pfull_step cap p m : pinv cap p → pfull p → build_failure m = false → pfull (pstep p m).
Proof.
  intros (H1&H2&H3&_&_&_&_&H8) Hf Hb. destruct m as [t|t|t ok|t|t|t]; simpl.
  - destruct (p_threads p !! t) as [[]|] eqn:Hold; try done; pf Hf.
  - destruct (p_threads p !! t) as [[]|] eqn:Hold; try done; try by pf Hf.
    + destruct (p_chan p); pf Hf.
    + case_bool_decide; pf Hf. lia.
    + case_bool_decide as Hcur; pf Hf. specialize (Hf _ _ H4 H5). specialize (H8 _ _ Hold). simpl in *. lia.
    + pf Hf. by apply (Hf _ _ Hold); left.
    + destruct (p_chan p); [done|pf Hf].
    + destruct c; pf Hf.
    + case_bool_decide; [pf Hf|done].
  - destruct (p_threads p !! t) as [[]|] eqn:Hold; try done. destruct ok; [|done]. pf Hf.
  - case_bool_decide; [|done]. destruct (p_threads p !! t) as [[]|] eqn:Hold; try done; pf Hf.
  - destruct (p_threads p !! t) as [[]|] eqn:Hold; try done; pf Hf.
  - done.
Qed.
Lemma pfull_run cap n ms :
  (∀ m, m ∈ ms → build_failure m = false) → pfull (prun (new_pool cap n) ms).
Proof.
  intros Hms. assert (pfull (new_pool cap n)) as H0.
  { intros t ph [-> _]%lookup_replicate [?|?]; done. }
  pose proof (pinv_new cap n) as Hi. revert H0 Hi. generalize (new_pool cap n).
  induction ms as [|m ms IH]; intros p H0 Hi; simpl; [done|]. apply IH.
  - intros m' Hm'. apply Hms. by right.
  - eapply pfull_step; eauto. apply Hms. left.
  - by apply pinv_step.
Qed.

(** ** A waiter can always be served while some client exists or is being built *)
Lemma sum_positive {A} (f : A → nat) l : 0 < sum_list_with f l → ∃ i x, l !! i = Some x ∧ 0 < f x.
Proof.
  induction l as [|a l IH]; simpl; [lia|]. intros H. destruct (decide (0 < f a)); [by exists 0, a|].
  destruct IH as (i&x&?&?); [lia|]. by exists (S i), x.
Qed.

Definition owns (ph : pphase) : Prop := in_hand ph ≠ [] ∨ is_building ph = true.

Lemma run_app p a b : prun p (a ++ b) = prun (prun p a) b.
Proof. apply fold_left_app. Qed.

Ltac pstp := cbn [prun fold_left pstep upd set_chan set_size add_avail add_waiting bump_next
   p_threads p_chan p_cap p_size p_avail p_waiting p_next p_dead];
  rewrite ?list_lookup_insert by (rewrite ?insert_length; eauto).

Lemma push_gives p s c :
  p_chan p = [] → 0 < p_cap p → p_threads p !! s = Some (PHold c) →
  ∃ p', prun p [MPush s; MRun s] = p' ∧ p_chan p' = [c] ∧ ∀ t, t ≠ s → p_threads p' !! t = p_threads p !! t.
Proof.
  intros Hc Hcap Hs. pose proof (lookup_lt_Some _ _ _ Hs) as Hlt. eexists. split; [done|].
  unfold prun. simpl. rewrite Hs. simpl. rewrite list_lookup_insert by done. simpl. rewrite Hc.
  rewrite bool_decide_true by (simpl; lia). simpl. split; [done|]. intros t Hne.
  by rewrite !list_lookup_insert_ne by done.
Qed.

(** Only good builds, and the moves of one goroutine. *)
Lemma to_hold p s ph :
  p_chan p = [] → p_threads p !! s = Some ph → owns ph → (∀ c, ph ≠ PPushing c) →
  ∃ ms c, (∀ m, m ∈ ms → build_failure m = false) ∧
    p_chan (prun p ms) = [] ∧ p_cap (prun p ms) = p_cap p ∧ p_threads (prun p ms) !! s = Some (PHold c) ∧
    ∀ t, t ≠ s → p_threads (prun p ms) !! t = p_threads p !! t.
Proof.
  intros Hc Hs Ho Hnp. pose proof (lookup_lt_Some _ _ _ Hs) as Hlt.
  assert (Hone : ∀ m, build_failure m = false → ∀ x, x ∈ [m] → build_failure x = false).
  { intros m Hm x ->%elem_of_list_singleton. done. }
  destruct ph; try (by destruct Ho as [[]|]).
  - exists [MBuild s true], (p_next p). split; [by apply Hone|]. unfold prun. simpl. rewrite Hs. simpl.
    rewrite list_lookup_insert by done. split_and!; try done. intros. by rewrite list_lookup_insert_ne.
  - exists [MRun s], c. split; [by apply Hone|]. unfold prun. simpl. rewrite Hs. simpl.
    rewrite list_lookup_insert by done. split_and!; try done. intros. by rewrite list_lookup_insert_ne.
  - exists [MRun s; MRun s], c. split.
    { intros m [->|[->|[]%elem_of_nil]%elem_of_cons]%elem_of_cons; done. }
    unfold prun. simpl. rewrite Hs. simpl. rewrite list_lookup_insert by done. simpl.
    rewrite list_insert_insert, list_lookup_insert by done. split_and!; try done. intros. by rewrite list_lookup_insert_ne.
  - destruct c as [c|]; [|by destruct Ho as [[]|]].
    exists [MRun s], c. split; [by apply Hone|]. unfold prun. simpl. rewrite Hs. simpl.
    rewrite list_lookup_insert by done. split_and!; try done. intros. by rewrite list_lookup_insert_ne.
  - exists [], c. split; [by intros ? ?%elem_of_nil|]. done.
  - by destruct (Hnp c).
Qed.

Lemma to_chan p s ph :
  p_chan p = [] → 0 < p_cap p → p_threads p !! s = Some ph → owns ph →
  ∃ ms c, (∀ m, m ∈ ms → build_failure m = false) ∧
    p_chan (prun p ms) = [c] ∧ ∀ t, t ≠ s → p_threads (prun p ms) !! t = p_threads p !! t.
Proof.
  intros Hc Hcap Hs Ho.
  assert ((∃ c, ph = PPushing c) ∨ ¬ (∃ c, ph = PPushing c)) as [[c ->]|Hnp].
  { destruct ph; try (right; by intros [? [=]]). left. by eexists. }
  - exists [MRun s], c. split; [by intros ? ->%elem_of_list_singleton|]. unfold prun. simpl. rewrite Hs. simpl.
    rewrite Hc. rewrite bool_decide_true by (simpl; lia). split; [done|]. intros. simpl. by rewrite list_lookup_insert_ne.
  - destruct (to_hold p s ph) as (ms&c&Hms&H1&H2&H3&H4); [done..|by intros c ->; destruct Hnp; exists c|].
    destruct (push_gives (prun p ms) s c) as (p'&Hp'&H5&H6); [done|lia|done|].
    exists (ms ++ [MPush s; MRun s]), c. rewrite run_app, Hp'. split_and!.
    + intros m [Hm|Hm]%elem_of_app; [by apply Hms|].
      apply elem_of_cons in Hm as [->|Hm]; [done|]. by apply elem_of_list_singleton in Hm as ->.
    + done.
    + intros t Ht. by rewrite H6, H4.
Qed.

Lemma waiter_takes p t c l :
  p_threads p !! t = Some PWaiting → p_chan p = c :: l →
  p_threads (prun p [MRun t; MRun t; MRun t]) !! t = Some (PHold c).
Proof.
  intros Ht Hc. pose proof (lookup_lt_Some _ _ _ Ht) as Hlt. unfold prun. simpl. rewrite Ht, Hc. simpl.
  rewrite list_lookup_insert by done. simpl.
  rewrite list_lookup_insert by (by rewrite insert_length). simpl.
  by rewrite list_lookup_insert by (by rewrite !insert_length).
Qed.

Lemma waiter_served_size cap n ms t : let p := prun (new_pool cap n) ms in
  p_threads p !! t = Some PWaiting → 0 < p_size p →
  ∃ more c, (∀ m, m ∈ more → build_failure m = false) ∧ p_threads (prun p more) !! t = Some (PHold c).
Proof.
  intros p Ht Hsz. destruct (pinv_run cap n ms) as (H1&H2&H3&_). fold p in H1, H2, H3.
  assert (H3r : ∀ m, m ∈ [MRun t; MRun t; MRun t] → build_failure m = false).
  { intros m Hm. repeat (apply elem_of_cons in Hm as [->|Hm]; [done|]). by apply elem_of_nil in Hm. }
  destruct (p_chan p) as [|c l] eqn:Hc.
  - assert (∃ s ph, p_threads p !! s = Some ph ∧ owns ph) as (s&ph&Hs&Ho).
    { destruct (decide (0 < sw wh p)) as [Hp|Hp].
      - apply sum_positive in Hp as (s&ph&Hs&Hp). exists s, ph. split; [done|]. left.
        intros E. unfold wh in Hp. rewrite E in Hp. simpl in Hp. lia.
      - assert (0 < sw wb p) as Hb by (simpl in H2; lia).
        apply sum_positive in Hb as (s&ph&Hs&Hb). exists s, ph. split; [done|]. right.
        unfold wb in Hb. destruct (is_building ph); [done|lia]. }
    destruct (to_chan p s ph) as (more&c&Hm&Hch&Hth); [done|lia|done|done|].
    assert (t ≠ s). { intros ->. rewrite Ht in Hs. injection Hs as <-. by destruct Ho as [[]|]. }
    exists (more ++ [MRun t; MRun t; MRun t]), c. split.
    + intros m [?|?]%elem_of_app; eauto.
    + rewrite run_app. apply (waiter_takes _ t c []); [by rewrite Hth|done].
  - exists [MRun t; MRun t; MRun t], c. split; [done|]. by eapply waiter_takes.
Qed.
Lemma waiter_served cap n ms t : let p := prun (new_pool cap n) ms in
  0 < cap → (∀ m, m ∈ ms → build_failure m = false) → p_threads p !! t = Some PWaiting →
  p_size p = cap ∧
  ∃ more c, (∀ m, m ∈ more → build_failure m = false) ∧ p_threads (prun p more) !! t = Some (PHold c).
Proof.
  intros p Hcap Hms Ht. pose proof (pfull_run cap n ms Hms t _ Ht (or_intror eq_refl)) as Hf.
  destruct (pinv_run cap n ms) as (H1&_). rewrite H1 in Hf. split; [done|].
  apply waiter_served_size; [done|]. fold p in Hf. fold p. by rewrite Hf.
Qed.

(** The next non-waiting step always exists: inside Pop, only PWaiting can be unable to move. *)
Lemma only_waiting_blocks p t ph :
  p_threads p !! t = Some ph → ¬ outside ph → ph ≠ PBuilding → ph ≠ PWaiting →
  (∀ c, ph = PPushing c → length (p_chan p) < p_cap p) →
  ∃ ph', p_threads (pstep p (MRun t)) !! t = Some ph' ∧ ph' ≠ ph.
Proof.
  intros Ht Ho Hb Hw Hp. pose proof (lookup_lt_Some _ _ _ Ht) as Hlt. simpl. rewrite Ht.
  destruct ph; try done; simpl; repeat case_match; simpl; try (rewrite list_lookup_insert by done);
    try (eexists; split; [done|]; by (discriminate || congruence)).
  case_bool_decide; [|by specialize (Hp c eq_refl)]. done.
Qed.
