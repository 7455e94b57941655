(** * Proofs about run-time namespaces *)
From Coq Require Import Lia.
From Verif Require Import RunNS_Spec.

(** ** Executions *)
Lemma run_app s ls1 ls2 : run s (ls1 ++ ls2) =
  match run s ls1 with
  | Some (s1, os1) => match run s1 ls2 with Some (s2, os2) => Some (s2, os1 ++ os2) | None => None end
  | None => None
  end.
Proof.
  revert s. induction ls1 as [|l ls1 IH]; intros s; simpl; [by destruct (run s ls2) as [[]|]|].
  destruct (step s l) as [[s' o]|]; [|done]. rewrite IH. destruct (run s' ls1) as [[s1 os1]|]; [|done].
  by destruct (run s1 ls2) as [[]|].
Qed.
Lemma run_snoc s ls l s' os' : run s (ls ++ [l]) = Some (s', os') →
  ∃ s1 os o, run s ls = Some (s1, os) ∧ step s1 l = Some (s', o) ∧ os' = os ++ [o].
Proof.
  rewrite run_app. destruct (run s ls) as [[s1 os]|]; [|done]. simpl. destruct (step s1 l) as [[s2 o]|] eqn:Hs; [|done].
  intros [= <- <-]. by exists s1, os, o.
Qed.
Lemma run_split s ls s' os1 o os2 : run s ls = Some (s', os1 ++ o :: os2) →
  ∃ ls1 l ls2 s1 s2, ls = ls1 ++ l :: ls2 ∧ run s ls1 = Some (s1, os1) ∧ step s1 l = Some (s2, o) ∧ run s2 ls2 = Some (s', os2).
Proof.
  revert s ls. induction os1 as [|o1 os1 IH]; intros s ls; destruct ls as [|l ls]; simpl; try done;
    destruct (step s l) as [[s1 o']|] eqn:Hs; try done; destruct (run s1 ls) as [[s2 os]|] eqn:Hr; try done; intros [= -> -> ->].
  - exists [], l, ls, s, s1. done.
  - destruct (IH _ _ Hr) as (ls1 & l' & ls2 & s3 & s4 & -> & H1 & H2 & H3). exists (l :: ls1), l', ls2, s3, s4.
    split; [done|]. simpl. by rewrite Hs, H1.
Qed.
Lemma exclusive_app ls1 ls2 : exclusive (ls1 ++ ls2) → exclusive ls1.
Proof. intros H l1 l l2 s os s' j name -> Hr. apply (H l1 l (l2 ++ ls2)) with (os := os); [|done]. by rewrite <- (assoc_L (++)). Qed.

(** ** Lookups *)
Definition bget (l : list ns) (j : nat) (name : string) : option nat := match l !! j with Some x => built x !! name | None => None end.
Lemma bget_alter_same f l i j name : (∀ x, built (f x) = built x) → bget (alter f i l) j name = bget l j name.
Proof.
  intros Hf. unfold bget. destruct (decide (i = j)) as [->|].
  - rewrite list_lookup_alter. destruct (l !! j); [|done]. simpl. by rewrite Hf.
  - by rewrite list_lookup_alter_ne.
Qed.
Lemma bget_set l i j k name v : i < length l →
  bget (alter (set_built k v) i l) j name = if decide (i = j ∧ k = name) then Some v else bget l j name.
Proof.
  intros Hi. unfold bget. destruct (decide (i = j)) as [->|].
  - rewrite list_lookup_alter. destruct (lookup_lt_is_Some_2 l j Hi) as [x ->]. simpl. case_decide as Hd.
    + destruct Hd as [_ ->]. by rewrite lookup_insert.
    + rewrite lookup_insert_ne; [done|]. intros ->. by apply Hd.
  - rewrite list_lookup_alter_ne by done. case_decide as Hd; [|done]. by destruct Hd.
Qed.
Lemma bget_parent_wg k n l j name : bget (add_parent_wg k n l) j name = bget l j name.
Proof. unfold add_parent_wg. destruct (parent_of l n); [|done]. by apply bget_alter_same. Qed.
Lemma length_parent_wg k n l : length (add_parent_wg k n l) = length l.
Proof. unfold add_parent_wg. destruct (parent_of l n); [|done]. by rewrite alter_length. Qed.

Lemma resolve_spec fuel l n name j r : resolve fuel l n name = Some (j, r) → r = bget l j name ∧ j < length l.
Proof.
  revert n. induction fuel as [|fuel IH]; intros n; simpl; [done|]. destruct (l !! n) as [s|] eqn:Hn; [|done].
  destruct (built s !! name) as [v|] eqn:Hb.
  - intros [= <- <-]. unfold bget. rewrite Hn. split; [done|]. by eapply lookup_lt_Some.
  - case_bool_decide.
    + intros [= <- <-]. unfold bget. rewrite Hn. split; [done|]. by eapply lookup_lt_Some.
    + destruct (parent s); [|done]. apply IH.
Qed.

(** ** Nodes are built once *)
Lemma stack_set s t st t' : stack (set_stack t st s) t' = if decide (t = t') then st else stack s t'.
Proof. unfold stack, set_stack. simpl. case_decide as Ht; [subst; by rewrite lookup_insert|by rewrite lookup_insert_ne]. Qed.

Lemma insert_stack s t st t' : default [] (<[t := st]> (threads s) !! t') = if decide (t = t') then st else stack s t'.
Proof. apply (stack_set s). Qed.

Definition count {A} (P : A → Prop) `{HPdec : !∀ x, Decision (P x)} (l : list A) : nat := length (filter P l).
Lemma count_app {A} (P : A → Prop) `{HPdec : !∀ x, Decision (P x)} l1 l2 : count P (l1 ++ l2) = count P l1 + count P l2.
Proof. unfold count. rewrite filter_app. apply app_length. Qed.
Lemma count_one {A} (P : A → Prop) `{HPdec : !∀ x, Decision (P x)} x : count P [x] = if decide (P x) then 1 else 0.
Proof. unfold count. rewrite filter_cons, filter_nil. by case_decide. Qed.

Definition builtrun (j : nat) (name : string) (o : obs) : Prop :=
  match o with OBuilt i k _ true => i = j ∧ k = name | _ => False end.
Global Instance builtrun_dec j name o : Decision (builtrun j name o).
Proof. destruct o; simpl; try apply _. destruct run; apply _. Defined.

Record inv (s : state) (os : list obs) : Prop := Inv {
  i_built : ∀ j name v, bget (nss s) j name = Some v ↔ ∃ run, OBuilt j name v run ∈ os;
  i_open : ∀ j name, in_progress s j name → bget (nss s) j name = None ∧ j < length (nss s);
  i_nodup : ∀ t, NoDup (stack s t);
  i_disj : ∀ t t' f, f ∈ stack s t → f ∈ stack s t' → t = t';
  i_tasks : ∀ j name, length (tasks_of s j name) = count (builtrun j name) os }.

Lemma inv_same_threads s s' os : inv s os → (∀ j name, bget (nss s') j name = bget (nss s) j name) →
  length (nss s) ≤ length (nss s') → threads s' = threads s →
  (∀ j name, length (tasks_of s' j name) = length (tasks_of s j name)) → inv s' (os ++ [OOther]).
Proof.
  intros [H1 H2 H3 H4 H5] Hb Hl Ht Htk. assert (∀ t, stack s' t = stack s t) as Hst by (intros t; unfold stack; by rewrite Ht). split.
  - intros j name v. rewrite Hb, H1. split; intros [r Hr]; exists r; [set_solver|]. apply elem_of_app in Hr as [|Hr]; [done|].
    by apply elem_of_list_singleton in Hr.
  - intros j name [t Hin]. rewrite Hst in Hin. rewrite Hb. destruct (H2 j name) as [Hn Hj]; [by exists t|]. split; [done|lia].
  - intros t. by rewrite Hst.
  - intros t t' f. rewrite !Hst. apply H4.
  - intros j name. rewrite Htk, H5, count_app, count_one. case_decide as Hd; [done|lia].
Qed.
Lemma tasks_of_alter ph i s j name n th : length (tasks_of (State n th (alter (set_phase ph) i (tasks s))) j name) = length (tasks_of s j name).
Proof.
  unfold tasks_of. cbn [tasks]. generalize (tasks s). intros l. revert i. induction l as [|t l IH]; intros i; [done|]. destruct i as [|i].
  - change (alter (set_phase ph) 0 (t :: l)) with (set_phase ph t :: l). rewrite !filter_cons. simpl. by repeat case_decide.
  - change (alter (set_phase ph) (S i) (t :: l)) with (t :: alter (set_phase ph) i l). rewrite !filter_cons. specialize (IH i).
    case_decide; cbn [length]; by rewrite IH.
Qed.

Lemma inv_step s os l s' o : inv s os → step s l = Some (s', o) →
  (∀ j name, o = OStart j name → ¬ in_progress s j name) → inv s' (os ++ [o]).
Proof.
  intros Hinv Hstep Hex. pose proof Hinv as [H1 H2 H3 H4 H5]. destruct l as [p ds|t n name|t r|i err|i|n]; cbn [step] in Hstep.
  - destruct (match p with Some _ => _ | None => true end); [|done]. injection Hstep as <- <-.
    apply (inv_same_threads s); simpl; [done| |rewrite app_length; lia|done|done].
    intros j name. unfold bget. destruct (decide (j < length (nss s))).
    + by rewrite lookup_app_l.
    + rewrite lookup_app_r by lia. rewrite (lookup_ge_None_2 (nss s)) by lia.
      destruct (j - length (nss s)) as [|k]; simpl; [by rewrite lookup_empty|done].
  - case_bool_decide as Hn; [|done]. destruct (resolve (S n) (nss s) n name) as [[j [v|]]|] eqn:Hr.
    + injection Hstep as <- <-. split; [|done..|].
      * intros j' name' v'. rewrite H1. split; intros [r Hr']; exists r; [set_solver|]. apply elem_of_app in Hr' as [|Hr']; [done|].
        by apply elem_of_list_singleton in Hr'.
      * intros j' name'. rewrite H5, count_app, count_one. case_decide as Hd; [done|lia].
    + injection Hstep as <- <-. apply resolve_spec in Hr as [Hr Hj]. specialize (Hex j name eq_refl). split.
      * intros j' name' v'. simpl. rewrite H1. split; intros [r Hr']; exists r; [set_solver|]. apply elem_of_app in Hr' as [|Hr']; [done|].
        by apply elem_of_list_singleton in Hr'.
      * intros j' name' [t' Hin]. simpl. rewrite stack_set in Hin. case_decide as Ht; [|apply H2; by exists t'].
        apply elem_of_cons in Hin as [[= -> ->]|Hin]; [done|]. apply H2. by exists t.
      * intros t'. rewrite stack_set. case_decide as Ht; [|done]. apply list.NoDup_cons. split; [|done]. intros Hin. apply Hex. by exists t.
      * intros t1 t2 f. rewrite !stack_set. repeat case_decide; subst; try done; try apply H4.
        -- intros [->|Hf]%elem_of_cons Hf2; [destruct Hex; by exists t2|by eapply H4].
        -- intros Hf1 [->|Hf]%elem_of_cons; [destruct Hex; by exists t1|by eapply H4].
      * intros j' name'. unfold tasks_of in *. simpl. rewrite H5, count_app, count_one. case_decide as Hd; [done|lia].
    + injection Hstep as <- <-. split; [|done..|].
      * intros j' name' v'. rewrite H1. split; intros [r Hr']; exists r; [set_solver|]. apply elem_of_app in Hr' as [|Hr']; [done|].
        by apply elem_of_list_singleton in Hr'.
      * intros j' name'. rewrite H5, count_app, count_one. case_decide as Hd; [done|lia].
  - destruct (stack s t) as [|[j name] st] eqn:Hst; [done|].
    destruct (H2 j name) as [Hnone Hj]; [exists t; rewrite Hst; by left|].
    pose proof (H3 t) as Hnd. rewrite Hst in Hnd. apply list.NoDup_cons in Hnd as [Hnin Hnd].
    assert (∀ t', (j, name) ∈ (if decide (t = t') then st else stack s t') → False) as Hout.
    { intros t'. case_decide as Ht; [done|]. intros Hin. apply Ht. apply (H4 t t' (j, name)); [rewrite Hst; by left|done]. }
    assert (∀ t' f, f ∈ (if decide (t = t') then st else stack s t') → f ∈ stack s t') as Hsub.
    { intros t' f. case_decide as Ht; [|done]. subst. rewrite Hst. by right. }
    destruct r as [[v run]|].
    + assert (inv (State (alter (set_built name v) j (nss s)) (<[t:=st]> (threads s)) (tasks s)) (os ++ [OBuilt j name v false])) as Hinv1.
      { split; cbn [nss threads tasks].
        - intros j' name' v'. rewrite bget_set by done. case_decide as Hd.
          + destruct Hd as [<- <-]. split; [intros [= <-]; exists false; set_solver|]. intros [r Hr]. apply elem_of_app in Hr as [Hr|Hr].
            * assert (bget (nss s) j name = Some v') by (apply H1; eauto). congruence.
            * apply elem_of_list_singleton in Hr. congruence.
          + rewrite H1. split; intros [r Hr]; exists r; [set_solver|]. apply elem_of_app in Hr as [|Hr]; [done|].
            apply elem_of_list_singleton in Hr. injection Hr as -> -> _ _. by destruct Hd.
        - intros j' name' [t' Hin]. unfold stack in Hin. simpl in Hin. rewrite insert_stack in Hin. rewrite alter_length, bget_set by done.
          destruct (decide (j = j' ∧ name = name')) as [[<- <-]|]; [exfalso; eapply Hout; exact Hin|apply H2; exists t'; by apply Hsub].
        - intros t'. unfold stack. simpl. rewrite insert_stack. case_decide; [done|apply H3].
        - intros t1 t2 f. unfold stack. simpl. rewrite !insert_stack. intros Hf1%Hsub Hf2%Hsub. by eapply H4.
        - intros j' name'. unfold tasks_of in *. simpl. rewrite H5, count_app, count_one. case_decide as Hd; [done|lia]. }
      destruct run; injection Hstep as <- <-; [|done].
      destruct Hinv1 as [G1 G2 G3 G4 G5]. cbn [nss threads tasks] in *. split; cbn [nss threads tasks].
      * intros j' name' v'. rewrite bget_parent_wg, bget_alter_same by done. rewrite G1. split; intros [r Hr].
        -- apply elem_of_app in Hr as [Hr|Hr]; [exists r; set_solver|]. apply elem_of_list_singleton in Hr. injection Hr as -> -> -> ->. exists true. set_solver.
        -- apply elem_of_app in Hr as [Hr|Hr]; [exists r; set_solver|]. apply elem_of_list_singleton in Hr. injection Hr as -> -> -> ->. exists false. set_solver.
      * intros j' name' Hp. rewrite length_parent_wg, alter_length, bget_parent_wg, bget_alter_same by done. by apply G2.
      * done.
      * done.
      * intros j' name'. specialize (H5 j' name'). unfold tasks_of in *. cbn [tasks]. rewrite filter_app, app_length, H5, count_app, count_one.
        f_equal. rewrite filter_cons, filter_nil. simpl. repeat case_decide; naive_solver.
    + injection Hstep as <- <-. split; cbn [nss threads tasks].
      * intros j' name' v'. simpl. rewrite H1. split; intros [r Hr']; exists r; [set_solver|]. apply elem_of_app in Hr' as [|Hr']; [done|].
        by apply elem_of_list_singleton in Hr'.
      * intros j' name' [t' Hin]. rewrite stack_set in Hin. apply H2. exists t'. by apply Hsub.
      * intros t'. rewrite stack_set. case_decide; [done|apply H3].
      * intros t1 t2 f. rewrite !stack_set. intros Hf1%Hsub Hf2%Hsub. by eapply H4.
      * intros j' name'. unfold tasks_of in *. simpl. rewrite H5, count_app, count_one. case_decide as Hd; [done|lia].
  - destruct (tasks s !! i) as [tk|]; [|done]. destruct (t_phase tk); try done. injection Hstep as <- <-.
    apply (inv_same_threads s); simpl; [done| | |done|].
    + intros j name. rewrite bget_alter_same by done. destruct err; [by apply bget_alter_same|done].
    + rewrite alter_length. destruct err; [by rewrite alter_length|done].
    + intros j name. apply tasks_of_alter.
  - destruct (tasks s !! i) as [tk|]; [|done]. destruct (t_phase tk); try done. injection Hstep as <- <-.
    apply (inv_same_threads s); simpl; [done| | |done|].
    + intros j name. apply bget_parent_wg.
    + by rewrite length_parent_wg.
    + intros j name. apply tasks_of_alter.
  - case_bool_decide; [|done]. injection Hstep as <- <-. apply (inv_same_threads s); simpl; [done| | |done|done].
    + intros j name. by apply bget_alter_same.
    + by rewrite alter_length.
Qed.
Lemma inv_run ls : ∀ s os, run init ls = Some (s, os) → exclusive ls → inv s os.
Proof.
  induction ls as [|l ls IH] using rev_ind; intros s os.
  - intros [= <- <-] _. split.
    + intros j name v. split; [done|]. by intros [r ?%elem_of_nil].
    + intros j name [t Hin]. unfold stack in Hin. simpl in Hin. rewrite lookup_empty in Hin. by apply elem_of_nil in Hin.
    + intros t. unfold stack. simpl. rewrite lookup_empty. constructor.
    + intros t t' f. unfold stack. simpl. rewrite lookup_empty. by intros ?%elem_of_nil.
    + done.
  - intros Hr Hex. apply run_snoc in Hr as (s1 & os1 & o & Hr & Hs & ->). eapply inv_step; [|exact Hs|].
    + apply IH; [done|]. by eapply exclusive_app.
    + intros j name ->. eapply (Hex ls l []); [done|exact Hr|exact Hs].
Qed.

(** What steps say about the state before them. *)
Lemma step_hit s l s' j name v : step s l = Some (s', OHit j name v) → bget (nss s) j name = Some v.
Proof.
  destruct l as [p ds|t n k|t r|i err|i|n]; cbn [step]; intros H; repeat case_match; simplify_eq.
  match goal with H : resolve _ _ _ _ = _ |- _ => by apply resolve_spec in H as [<- _] end.
Qed.
Lemma step_start s l s' j name : step s l = Some (s', OStart j name) → bget (nss s) j name = None.
Proof.
  destruct l as [p ds|t n k|t r|i err|i|n]; cbn [step]; intros H; repeat case_match; simplify_eq.
  match goal with H : resolve _ _ _ _ = _ |- _ => by apply resolve_spec in H as [<- _] end.
Qed.
Lemma step_return s l s' o j name : step s l = Some (s', o) → is_built j name o ∨ o = OFailed j name → in_progress s j name.
Proof.
  intros H Ho. assert (∃ t r, l = LReturn t r) as (t & r & ->).
  { destruct l as [p ds|t n k|t r|i err|i|n]; cbn [step] in H; repeat case_match; simplify_eq; destruct Ho as [(v & run & Ho)|Ho]; try done; eauto. }
  cbn [step] in H. destruct (stack s t) as [|[j' k'] st] eqn:Hst; [done|]. exists t. rewrite Hst.
  destruct r as [[v [|]]|]; injection H as <- <-; destruct Ho as [(v' & run' & Ho)|Ho]; simplify_eq; by left.
Qed.

Lemma built_before ls s os j name v : run init ls = Some (s, os) → exclusive ls → bget (nss s) j name = Some v → ∃ r, OBuilt j name v r ∈ os.
Proof. intros Hr Hex. by apply (i_built _ _ (inv_run _ _ _ Hr Hex)). Qed.

Lemma hit_after_built ls s os os1 os2 j name v : execution ls s os → exclusive ls → os = os1 ++ OHit j name v :: os2 →
  ∃ r, OBuilt j name v r ∈ os1.
Proof.
  intros Hr Hex ->. apply run_split in Hr as (ls1 & l & ls2 & s1 & s2 & -> & Hr & Hs & _).
  eapply built_before; [exact Hr|by eapply exclusive_app|]. by eapply step_hit.
Qed.
Lemma nothing_after_built ls s os os1 os2 j name v r : execution ls s os → exclusive ls → os = os1 ++ OBuilt j name v r :: os2 →
  ∀ o, o ∈ os2 → ¬ is_built j name o ∧ o ≠ OStart j name ∧ o ≠ OFailed j name.
Proof.
  intros Hr Hex -> o Ho. apply elem_of_list_split in Ho as (os3 & os4 & ->).
  assert (os1 ++ OBuilt j name v r :: os3 ++ o :: os4 = (os1 ++ OBuilt j name v r :: os3) ++ o :: os4) as Heq by (by rewrite <- (assoc_L (++))).
  rewrite Heq in Hr. apply run_split in Hr as (ls1 & l & ls2 & s1 & s2 & -> & Hr & Hs & _).
  pose proof (inv_run _ _ _ Hr (exclusive_app _ _ Hex)) as Hinv.
  assert (bget (nss s1) j name = Some v) as Hb by (apply (i_built _ _ Hinv); exists r; set_solver).
  split_and!.
  - intros Hbo. destruct (i_open _ _ Hinv j name) as [Hn _]; [by eapply step_return; [exact Hs|left]|congruence].
  - intros ->. apply step_start in Hs. congruence.
  - intros ->. destruct (i_open _ _ Hinv j name) as [Hn _]; [by eapply step_return; [exact Hs|right]|congruence].
Qed.
Lemma built_once ls s os i1 i2 j name v1 r1 v2 r2 : execution ls s os → exclusive ls →
  os !! i1 = Some (OBuilt j name v1 r1) → os !! i2 = Some (OBuilt j name v2 r2) → i1 = i2.
Proof.
  intros Hr Hex. assert (∀ i1 i2 v1 r1 v2 r2, i1 < i2 → os !! i1 = Some (OBuilt j name v1 r1) → os !! i2 = Some (OBuilt j name v2 r2) → False) as Hlt.
  { intros k1 k2 w1 q1 w2 q2 Hlt H1 H2. pose proof (take_drop_middle _ _ _ H1) as Heq.
    destruct (nothing_after_built _ _ _ _ _ _ _ _ _ Hr Hex (eq_sym Heq) (OBuilt j name w2 q2)) as [Hn _].
    - apply elem_of_list_lookup_2 with (i := k2 - S k1). rewrite lookup_drop. by replace (S k1 + (k2 - S k1)) with k2 by lia.
    - apply Hn. by exists w2, q2. }
  intros H1 H2. destruct (lt_eq_lt_dec i1 i2) as [[Hlt'|]|Hlt']; [|done|]; exfalso; eauto.
Qed.
Lemma same_instance ls s os j name v1 v2 o1 o2 : execution ls s os → exclusive ls → o1 ∈ os → o2 ∈ os →
  hands_out j name v1 o1 → hands_out j name v2 o2 → v1 = v2.
Proof.
  intros Hr Hex Ho1 Ho2 H1 H2.
  assert (∀ o v, o ∈ os → hands_out j name v o → ∃ r, OBuilt j name v r ∈ os) as Hb.
  { intros o v Ho [->|[r ->]]; [|eauto]. apply elem_of_list_split in Ho as (os1 & os2 & Heq).
    destruct (hit_after_built _ _ _ _ _ _ _ _ Hr Hex Heq) as [r Hin]. exists r. rewrite Heq. set_solver. }
  destruct (Hb _ _ Ho1 H1) as [r1 Hin1]. destruct (Hb _ _ Ho2 H2) as [r2 Hin2].
  pose proof (inv_run _ _ _ Hr Hex) as Hinv.
  assert (bget (nss s) j name = Some v1) by (apply (i_built _ _ Hinv); eauto).
  assert (bget (nss s) j name = Some v2) by (apply (i_built _ _ Hinv); eauto). congruence.
Qed.
Lemma count_pos {A} (P : A → Prop) `{HPdec : !∀ x, Decision (P x)} l : 0 < count P l ↔ ∃ x, x ∈ l ∧ P x.
Proof.
  unfold count. split.
  - destruct (filter P l) as [|x r] eqn:Hf; simpl; [lia|]. intros _. exists x. assert (x ∈ filter P l) as Hx by (rewrite Hf; by left).
    apply elem_of_list_filter in Hx as [??]. done.
  - intros (x & Hx & HP). assert (x ∈ filter P l) as Hin by (by apply elem_of_list_filter). destruct (filter P l); [by apply elem_of_nil in Hin|simpl; lia].
Qed.
Lemma count_le_one {A} (P : A → Prop) `{HPdec : !∀ x, Decision (P x)} l :
  (∀ i1 i2 x1 x2, l !! i1 = Some x1 → l !! i2 = Some x2 → P x1 → P x2 → i1 = i2) → count P l ≤ 1.
Proof.
  unfold count. induction l as [|x l IH]; intros H; [simpl; lia|]. rewrite filter_cons. case_decide as HP.
  - destruct (decide (0 < count P l)) as [Hc|]; [|unfold count in *; simpl; lia]. apply count_pos in Hc as (y & Hy & HPy).
    apply elem_of_list_lookup in Hy as [i Hi]. discriminate (H 0 (S i) x y eq_refl Hi HP HPy).
  - apply IH. intros i1 i2 x1 x2 H1 H2 P1 P2. assert (S i1 = S i2); [by eapply (H (S i1) (S i2))|lia].
Qed.
Lemma started_once ls s os j name : execution ls s os → exclusive ls →
  length (tasks_of s j name) ≤ 1 ∧ (length (tasks_of s j name) = 1 ↔ ∃ v, OBuilt j name v true ∈ os).
Proof.
  intros Hr Hex. pose proof (inv_run _ _ _ Hr Hex) as Hinv. rewrite (i_tasks _ _ Hinv).
  assert (count (builtrun j name) os ≤ 1) as Hle.
  { apply count_le_one. intros i1 i2 x1 x2 H1 H2 P1 P2. destruct x1 as [| | |a b c [|]| |]; try done. destruct x2 as [| | |a' b' c' [|]| |]; try done.
    destruct P1 as [-> ->]. destruct P2 as [-> ->]. by eapply built_once. }
  split; [done|]. split.
  - intros H1. assert (0 < count (builtrun j name) os) as Hp by lia. apply count_pos in Hp as (o & Ho & HP).
    destruct o as [| | |a b c [|]| |]; try done. destruct HP as [-> ->]. eauto.
  - intros [v Hv]. assert (0 < count (builtrun j name) os); [|lia]. apply count_pos. eexists. split; [exact Hv|done].
Qed.
Lemma failure_not_cached ls s os j name t s' o : execution ls s os → exclusive ls →
  (∀ v r, OBuilt j name v r ∉ os) → (∃ x, nss s !! j = Some x ∧ name ∈ defs x) →
  step s (LGet t j name) = Some (s', o) → o = OStart j name.
Proof.
  intros Hr Hex Hnb (x & Hx & Hd) Hs. pose proof (inv_run _ _ _ Hr Hex) as Hinv.
  cbn [step resolve] in Hs. case_bool_decide; [|done]. rewrite Hx in Hs. destruct (built x !! name) as [v|] eqn:Hb.
  - assert (bget (nss s) j name = Some v) as Hg by (unfold bget; by rewrite Hx). apply (i_built _ _ Hinv) in Hg as [r Hin]. by apply Hnb in Hin.
  - rewrite bool_decide_true in Hs by done. by injection Hs as _ <-.
Qed.

(** ** Wait groups *)
Global Instance phase_eq_dec : EqDecision phase.
Proof. solve_decision. Defined.
Definition contrib (l : list ns) (j : nat) (t : task) : Z :=
  ((if decide (t_ns t = j ∧ t_phase t = Running) then 1 else 0) +
   (if decide (parent_of l (t_ns t) = Some j ∧ t_phase t ≠ Finished) then 1 else 0))%Z.
Definition zsum (f : task → Z) (l : list task) : Z := foldr (λ t a, (f t + a)%Z) 0%Z l.
Lemma zsum_app f l1 l2 : zsum f (l1 ++ l2) = (zsum f l1 + zsum f l2)%Z.
Proof. induction l1; simpl; [done|]. rewrite IHl1. lia. Qed.
Lemma zsum_ext f g l : (∀ t, t ∈ l → f t = g t) → zsum f l = zsum g l.
Proof. induction l as [|t l IH]; intros H; simpl; [done|]. rewrite (H t) by (by left). rewrite IH; [done|]. intros t' ?. apply H. by right. Qed.
Lemma zsum_alter f g l i t : l !! i = Some t → zsum f (alter g i l) = (zsum f l - f t + f (g t))%Z.
Proof.
  revert i. induction l as [|x l IH]; intros [|i] Hi; simplify_eq/=; [change (list_alter g 0 (t :: l)) with (g t :: l); simpl; lia|].
  change (alter g (S i) (x :: l)) with (x :: alter g i l). simpl. rewrite IH by done. lia.
Qed.
Lemma contrib_nonneg l j t : (0 ≤ contrib l j t)%Z.
Proof. unfold contrib. repeat case_decide; lia. Qed.
Lemma zsum_nonneg f l : (∀ t, 0 ≤ f t)%Z → (0 ≤ zsum f l)%Z.
Proof. intros H. induction l; simpl; [lia|]. specialize (H a). lia. Qed.
Lemma zsum_zero f l : (∀ t, 0 ≤ f t)%Z → zsum f l = 0%Z ↔ ∀ t, t ∈ l → f t = 0%Z.
Proof.
  intros H. induction l as [|t l IH]; simpl; [split; [by intros _ t ?%elem_of_nil|done]|]. pose proof (H t). pose proof (zsum_nonneg f l H). split.
  - intros Hz x [->|Hx]%elem_of_cons; [lia|]. apply IH; [lia|done].
  - intros Hall. rewrite (Hall t) by (by left). simpl. apply IH. intros x Hx. apply Hall. by right.
Qed.

Record winv (s : state) : Prop := WInv {
  w_sum : ∀ j x, nss s !! j = Some x → wg x = zsum (contrib (nss s) j) (tasks s);
  w_parent : ∀ n p, parent_of (nss s) n = Some p → p < n;
  w_tasks : ∀ t, t ∈ tasks s → t_ns t < length (nss s);
  w_open : ∀ j name, in_progress s j name → j < length (nss s) }.
Lemma parent_of_lt s n p : winv s → parent_of (nss s) n = Some p → p < length (nss s).
Proof.
  intros H Hp. pose proof (w_parent _ H _ _ Hp). unfold parent_of in Hp. destruct (nss s !! n) eqn:Hn; [|done]. apply lookup_lt_Some in Hn. lia.
Qed.
Lemma parent_of_alter f i l n : (∀ x, parent (f x) = parent x) → parent_of (alter f i l) n = parent_of l n.
Proof.
  intros Hf. unfold parent_of. destruct (decide (i = n)) as [->|].
  - rewrite list_lookup_alter. destruct (l !! n); [|done]. simpl. by rewrite Hf.
  - by rewrite list_lookup_alter_ne.
Qed.
Lemma parent_of_pwg k i l n : parent_of (add_parent_wg k i l) n = parent_of l n.
Proof. unfold add_parent_wg. destruct (parent_of l i); [|done]. by apply parent_of_alter. Qed.
Lemma parent_of_app l x n : n < length l → parent_of (l ++ [x]) n = parent_of l n.
Proof. intros Hn. unfold parent_of. by rewrite lookup_app_l. Qed.
Lemma wg_alter_same f (l : list ns) i j : (∀ x, wg (f x) = wg x) → wg <$> (alter f i l !! j) = wg <$> (l !! j).
Proof.
  intros Hf. destruct (decide (i = j)) as [->|].
  - rewrite list_lookup_alter. destruct (l !! j); [|done]. simpl. by rewrite Hf.
  - by rewrite list_lookup_alter_ne.
Qed.
Lemma wg_add k (l : list ns) i j : wg <$> (alter (add_wg k) i l !! j) = (λ x, wg x + (if decide (i = j) then k else 0))%Z <$> (l !! j).
Proof.
  case_decide as Hd; [subst|].
  - rewrite list_lookup_alter. by destruct (l !! j).
  - rewrite list_lookup_alter_ne by done. destruct (l !! j); simpl; [f_equal; lia|done].
Qed.
Lemma wg_padd k (l : list ns) i j : wg <$> (add_parent_wg k i l !! j) = (λ x, wg x + (if decide (parent_of l i = Some j) then k else 0))%Z <$> (l !! j).
Proof.
  unfold add_parent_wg. destruct (parent_of l i) as [p|].
  - rewrite wg_add. destruct (l !! j); simpl; [|done]. f_equal. repeat case_decide; congruence.
  - destruct (l !! j); simpl; [|done]. f_equal. lia.
Qed.
Lemma contrib_ext l l' j t : parent_of l (t_ns t) = parent_of l' (t_ns t) → contrib l j t = contrib l' j t.
Proof. intros H. unfold contrib. by rewrite H. Qed.
Lemma zsum_contrib_ext l l' j ts : (∀ n, parent_of l n = parent_of l' n) → zsum (contrib l j) ts = zsum (contrib l' j) ts.
Proof. intros H. apply zsum_ext. intros t _. by apply contrib_ext. Qed.

Lemma winv_step s l s' o : winv s → step s l = Some (s', o) → winv s'.
Proof.
  intros Hw Hstep. pose proof Hw as [H1 H2 H3 H4]. destruct l as [p ds|t n name|t r|i err|i|n]; cbn [step] in Hstep.
  - destruct (match p with Some _ => _ | None => true end) eqn:Hp; [|done]. injection Hstep as <- <-. split; cbn [nss tasks threads].
    + intros j x Hx. assert (zsum (contrib (nss s ++ [Ns p ds ∅ 0 false]) j) (tasks s) = zsum (contrib (nss s) j) (tasks s)) as ->.
      { apply zsum_ext. intros t Ht%H3. apply contrib_ext. by apply parent_of_app. }
      apply lookup_app_Some in Hx as [Hx|[Hge Hx]]; [auto|]. destruct (j - length (nss s)) as [|k] eqn:Hk; simplify_eq/=.
      assert (j = length (nss s)) as -> by lia. symmetry. apply zsum_zero; [intros; apply contrib_nonneg|].
      intros t Ht. unfold contrib. rewrite !decide_False; [done| |].
      * intros [Hpar _]. pose proof (parent_of_lt _ _ _ Hw Hpar). lia.
      * intros [Hns _]. apply H3 in Ht. lia.
    + intros n q. unfold parent_of. destruct ((nss s ++ [Ns p ds ∅ 0 false]) !! n) as [x|] eqn:Hx; [|done].
      apply lookup_app_Some in Hx as [Hx|[Hge Hx]].
      * intros Hq. apply H2. unfold parent_of. by rewrite Hx.
      * destruct (n - length (nss s)) as [|k] eqn:Hk; simplify_eq/=. intros ->. apply bool_decide_eq_true in Hp. lia.
    + intros t Ht%H3. rewrite app_length. simpl. lia.
    + intros j name Hin. rewrite app_length. simpl. specialize (H4 j name Hin). lia.
  - case_bool_decide as Hn; [|done]. destruct (resolve (S n) (nss s) n name) as [[j [v|]]|] eqn:Hr; injection Hstep as <- <-; [done| |done].
    apply resolve_spec in Hr as [_ Hj]. split; cbn [set_stack nss tasks threads]; try done. intros j' name' [t' Hin]. rewrite stack_set in Hin.
    case_decide; [|apply (H4 j' name'); by exists t']. apply elem_of_cons in Hin as [[= -> ->]|Hin]; [done|]. apply (H4 j' name'). by exists t.
  - destruct (stack s t) as [|[j name] st] eqn:Hst; [done|].
    assert (j < length (nss s)) as Hj by (apply (H4 j name); exists t; rewrite Hst; by left).
    assert (∀ n' j' name' tk, in_progress (State n' (<[t := st]> (threads s)) tk) j' name' → in_progress s j' name') as Hsub.
    { intros n' j' name' tk [t' Hin]. exists t'. unfold stack in Hin. simpl in Hin. rewrite insert_stack in Hin. case_decide; [|done]. subst. rewrite Hst. by right. }
    destruct r as [[v run]|].
    + assert (winv (State (alter (set_built name v) j (nss s)) (<[t:=st]> (threads s)) (tasks s))) as Hw1.
      { split; cbn [nss tasks threads].
        - intros j' x Hx. pose proof (wg_alter_same (set_built name v) (nss s) j j' ltac:(done)) as Hwg. rewrite Hx in Hwg. simpl in Hwg.
          destruct (nss s !! j') as [y|] eqn:Hy; [|done]. injection Hwg as ->. rewrite (H1 _ _ Hy). apply zsum_ext. intros t' _. apply contrib_ext.
          symmetry. by apply parent_of_alter.
        - intros n p. rewrite parent_of_alter by done. apply H2.
        - intros t' Ht'. rewrite alter_length. auto.
        - intros j' name' Hin%Hsub. rewrite alter_length. eauto. }
      destruct run; injection Hstep as <- <-; [|done].
      destruct Hw1 as [G1 G2 G3 G4]. cbn [nss tasks threads] in *. set (nss1 := alter (set_built name v) j (nss s)) in *.
      assert (∀ n, parent_of (add_parent_wg 1 j (alter (add_wg 1) j nss1)) n = parent_of nss1 n) as Hpar.
      { intros n. rewrite parent_of_pwg. by apply parent_of_alter. }
      split; cbn [nss tasks threads].
      * intros j' x Hx. pose proof (wg_padd 1 (alter (add_wg 1) j nss1) j j') as Hwg. rewrite Hx in Hwg. simpl in Hwg.
        pose proof (wg_add 1 nss1 j j') as Hwg2. destruct (alter (add_wg 1) j nss1 !! j') as [y|] eqn:Hy; [|done]. simpl in *.
        destruct (nss1 !! j') as [z|] eqn:Hz; [|done]. simpl in *. injection Hwg as ->. injection Hwg2 as ->. rewrite (G1 _ _ Hz).
        rewrite zsum_app. rewrite !(zsum_contrib_ext _ _ _ _ Hpar). cbn [zsum foldr]. unfold contrib at 3. cbn [t_ns t_phase].
        rewrite (parent_of_alter (add_wg 1)) by done. repeat case_decide; naive_solver lia.
      * intros n p. rewrite Hpar. apply G2.
      * intros t'. rewrite length_parent_wg, alter_length. intros [Ht'|Ht']%elem_of_app; [auto|]. apply elem_of_list_singleton in Ht' as ->.
        simpl. unfold nss1. by rewrite alter_length.
      * intros j' name' Hin%Hsub. rewrite length_parent_wg, alter_length. unfold nss1. rewrite alter_length. eauto.
    + injection Hstep as <- <-. split; cbn [set_stack nss tasks threads]; try done. intros j' name' Hin. apply (H4 j' name'). by eapply Hsub.
  - destruct (tasks s !! i) as [tk|] eqn:Hi; [|done]. destruct (t_phase tk) eqn:Hph; try done. injection Hstep as <- <-.
    set (nss1 := if err then alter set_cancelled (t_ns tk) (nss s) else nss s).
    assert (∀ n, parent_of nss1 n = parent_of (nss s) n) as Hpar1 by (intros n; unfold nss1; destruct err; [by apply parent_of_alter|done]).
    assert (∀ n, parent_of (alter (add_wg (-1)) (t_ns tk) nss1) n = parent_of (nss s) n) as Hpar by (intros n; rewrite parent_of_alter by done; apply Hpar1).
    assert (length nss1 = length (nss s)) as Hlen by (unfold nss1; destruct err; [by rewrite alter_length|done]).
    split; cbn [nss tasks threads].
    + intros j x Hx. pose proof (wg_add (-1) nss1 (t_ns tk) j) as Hwg. rewrite Hx in Hwg. simpl in Hwg. destruct (nss1 !! j) as [y|] eqn:Hy; [|done].
      assert (∃ z, nss s !! j = Some z ∧ wg z = wg y) as (z & Hz & Hzy).
      { revert Hy. unfold nss1. destruct err; [|eauto]. intros Hy. pose proof (wg_alter_same set_cancelled (nss s) (t_ns tk) j ltac:(done)) as Hs.
        rewrite Hy in Hs. simpl in Hs. destruct (nss s !! j) as [z|]; [|done]. injection Hs as Hs. eauto. }
      simpl in Hwg. injection Hwg as ->. rewrite <- Hzy, (H1 _ _ Hz). rewrite (zsum_alter _ _ _ _ _ Hi).
      rewrite (zsum_contrib_ext _ _ _ _ Hpar).
      rewrite (contrib_ext _ (nss s) j (set_phase OwnDone tk)) by apply Hpar. rewrite (contrib_ext _ (nss s) j tk) by apply Hpar. unfold contrib. simpl. rewrite Hph.
      repeat case_decide; naive_solver lia.
    + intros n p. rewrite Hpar. apply H2.
    + intros t Ht. rewrite alter_length, Hlen. apply elem_of_list_lookup in Ht as [k Hk]. destruct (decide (k = i)) as [->|].
      * rewrite list_lookup_alter, Hi in Hk. injection Hk as <-. simpl. apply H3. by eapply elem_of_list_lookup_2.
      * rewrite list_lookup_alter_ne in Hk by done. apply H3. by eapply elem_of_list_lookup_2.
    + intros j name Hin. rewrite alter_length, Hlen. by eapply H4.
  - destruct (tasks s !! i) as [tk|] eqn:Hi; [|done]. destruct (t_phase tk) eqn:Hph; try done. injection Hstep as <- <-.
    assert (∀ n, parent_of (add_parent_wg (-1) (t_ns tk) (nss s)) n = parent_of (nss s) n) as Hpar by (intros n; apply parent_of_pwg).
    split; cbn [nss tasks threads].
    + intros j x Hx. pose proof (wg_padd (-1) (nss s) (t_ns tk) j) as Hwg. rewrite Hx in Hwg. simpl in Hwg. destruct (nss s !! j) as [z|] eqn:Hz; [|done].
      simpl in Hwg. injection Hwg as ->. rewrite (H1 _ _ Hz). rewrite (zsum_alter _ _ _ _ _ Hi).
      rewrite (zsum_contrib_ext _ _ _ _ Hpar).
      rewrite (contrib_ext _ (nss s) j (set_phase Finished tk)) by apply Hpar. rewrite (contrib_ext _ (nss s) j tk) by apply Hpar. unfold contrib. simpl. rewrite Hph.
      repeat case_decide; naive_solver lia.
    + intros n p. rewrite Hpar. apply H2.
    + intros t Ht. rewrite length_parent_wg. apply elem_of_list_lookup in Ht as [k Hk]. destruct (decide (k = i)) as [->|].
      * rewrite list_lookup_alter, Hi in Hk. injection Hk as <-. simpl. apply H3. by eapply elem_of_list_lookup_2.
      * rewrite list_lookup_alter_ne in Hk by done. apply H3. by eapply elem_of_list_lookup_2.
    + intros j name Hin. rewrite length_parent_wg. by eapply H4.
  - case_bool_decide as Hn; [|done]. injection Hstep as <- <-. split; cbn [nss tasks threads].
    + intros j' x Hx. pose proof (wg_alter_same set_cancelled (nss s) n j' ltac:(done)) as Hwg. rewrite Hx in Hwg. simpl in Hwg.
      destruct (nss s !! j') as [y|] eqn:Hy; [|done]. injection Hwg as ->. rewrite (H1 _ _ Hy). apply zsum_ext. intros t' _. apply contrib_ext.
      symmetry. by apply parent_of_alter.
    + intros m p. rewrite parent_of_alter by done. apply H2.
    + intros t' Ht'. rewrite alter_length. auto.
    + intros j' name' Hin. rewrite alter_length. by eapply H4.
Qed.
Lemma winv_run ls : ∀ s os, run init ls = Some (s, os) → winv s.
Proof.
  induction ls as [|l ls IH] using rev_ind; intros s os.
  - intros [= <- <-]. split; simpl.
    + by intros j x.
    + intros n p. unfold parent_of. simpl. done.
    + by intros t ?%elem_of_nil.
    + intros j name [t Hin]. unfold stack in Hin. simpl in Hin. rewrite lookup_empty in Hin. by apply elem_of_nil in Hin.
  - intros Hr. apply run_snoc in Hr as (s1 & os1 & o & Hr & Hs & ->). eapply winv_step; [|exact Hs]. by eapply IH.
Qed.

Lemma await_spec ls s os n x : execution ls s os → nss s !! n = Some x →
  (0 ≤ wg x)%Z ∧
  (await_returns s n = true ↔
   (∀ t, t ∈ tasks s → t_ns t = n → t_phase t ≠ Running) ∧
   (∀ t, t ∈ tasks s → parent_of (nss s) (t_ns t) = Some n → t_phase t = Finished)).
Proof.
  intros Hr Hx. pose proof (winv_run _ _ _ Hr) as Hw. pose proof (w_sum _ Hw _ _ Hx) as Hsum. split.
  - rewrite Hsum. apply zsum_nonneg. intros; apply contrib_nonneg.
  - unfold await_returns. rewrite Hx, bool_decide_eq_true, Hsum, zsum_zero by (intros; apply contrib_nonneg). split.
    + intros Hall. split; intros t Ht Hn; specialize (Hall t Ht); unfold contrib in Hall.
      * intros Hph. rewrite decide_True in Hall by done. case_decide; lia.
      * destruct (decide (t_phase t = Finished)); [done|]. rewrite (decide_True (P := parent_of _ _ = _ ∧ _)) in Hall by done. case_decide; lia.
    + intros [Ha Hb] t Ht. unfold contrib. rewrite !decide_False; [done| |].
      * intros [Hp Hph]. by apply Hph, Hb.
      * intros [Hn Hph]. by eapply Ha.
Qed.

(** ** Cancellation *)
Definition is_cancelled (l : list ns) (n : nat) : Prop := ∃ x, l !! n = Some x ∧ cancelled x = true.
Lemma ctx_done_spec s n : winv s → n < length (nss s) → ∀ fuel, n < fuel →
  ctx_done fuel (nss s) n = true ↔ ∃ a, encloses (nss s) a n ∧ is_cancelled (nss s) a.
Proof.
  intros Hw. induction n as [n IH] using lt_wf_ind. intros Hn fuel Hf. destruct fuel as [|fuel]; [lia|]. cbn [ctx_done].
  destruct (lookup_lt_is_Some_2 (nss s) n Hn) as [x Hx]. rewrite Hx.
  assert (parent_of (nss s) n = parent x) as Hp by (unfold parent_of; by rewrite Hx).
  rewrite orb_true_iff. destruct (parent x) as [p|].
  - pose proof (w_parent _ Hw _ _ Hp). rewrite (IH p) by lia. split.
    + intros [Hc|(a & Ha & Hc)]; [exists n; split; [constructor|by exists x]|]. exists a. split; [by eapply enc_step|done].
    + intros (a & Ha & Hc). inversion Ha as [|n' p' Hp' Ha']; subst.
      * left. destruct Hc as (y & Hy & Hc). congruence.
      * right. exists a. split; [|done]. rewrite Hp in Hp'. by injection Hp' as <-.
  - split.
    + intros [Hc|?]; [|done]. exists n. split; [constructor|by exists x].
    + intros (a & Ha & Hc). inversion Ha as [|n' p' Hp' Ha']; subst; [|congruence]. left. destruct Hc as (y & Hy & Hc). congruence.
Qed.
Lemma cancelled_alter f i l n : (∀ x, cancelled (f x) = cancelled x) → is_cancelled (alter f i l) n ↔ is_cancelled l n.
Proof.
  intros Hf. unfold is_cancelled. destruct (decide (i = n)) as [->|].
  - rewrite list_lookup_alter. destruct (l !! n) as [x|]; simpl; [|done]. split; intros (y & [= <-] & Hc); eexists; (split; [done|]); by rewrite Hf in *.
  - by rewrite list_lookup_alter_ne.
Qed.
Lemma cancelled_set i l n : i < length l → is_cancelled (alter set_cancelled i l) n ↔ n = i ∨ is_cancelled l n.
Proof.
  intros Hi. unfold is_cancelled. destruct (decide (i = n)) as [->|Hne].
  - rewrite list_lookup_alter. destruct (lookup_lt_is_Some_2 l n Hi) as [x ->]. simpl. split; [auto|]. intros _. eexists. done.
  - rewrite list_lookup_alter_ne by done. naive_solver.
Qed.
Lemma cancelled_pwg k i l n : is_cancelled (add_parent_wg k i l) n ↔ is_cancelled l n.
Proof. unfold add_parent_wg. destruct (parent_of l i); [|done]. by apply cancelled_alter. Qed.
Lemma cancelled_run ls : ∀ s os, run init ls = Some (s, os) → ∀ a, is_cancelled (nss s) a ↔ cause ls s a.
Proof.
  induction ls as [|l ls IH] using rev_ind; intros s os.
  - intros [= <- <-] a. split; [by intros (x & ? & _)|]. by intros [?%elem_of_nil|(i & tk & ?%elem_of_nil & _)].
  - intros Hr. apply run_snoc in Hr as (s1 & os1 & o & Hr & Hs & ->). pose proof (winv_run _ _ _ Hr) as Hw.
    specialize (IH _ _ Hr). intros a.
    assert (∀ i tk, tasks s1 !! i = Some tk → ∃ tk', tasks s !! i = Some tk' ∧ t_ns tk' = t_ns tk) as Hmono.
    { intros i tk Hi. destruct l as [p ds|t n name|t r|k err|k|n]; cbn [step] in Hs; repeat case_match; simplify_eq; simpl; eauto.
      { exists tk. split; [by apply lookup_app_l_Some|done]. }
      all: destruct (decide (k = i)) as [->|]; [rewrite list_lookup_alter, Hi; simpl; eauto|rewrite list_lookup_alter_ne by done; eauto]. }
    assert (∀ i, LExit i true ∈ ls → ∃ tk, tasks s1 !! i = Some tk) as Hold.
    { clear -Hr. intros i Hin. apply elem_of_list_split in Hin as (l1 & l2 & ->). rewrite run_app in Hr.
      destruct (run init l1) as [[s0 os0]|]; [|done]. cbn [run] in Hr. destruct (step s0 (LExit i true)) as [[s2 o2]|] eqn:Hs; [|done].
      destruct (run s2 l2) as [[s3 os3]|] eqn:Hr2; [|done]. injection Hr as <- _.
      assert (∃ tk, tasks s2 !! i = Some tk) as Hi.
      { cbn [step] in Hs. destruct (tasks s0 !! i) as [tk|] eqn:Hi; [|done]. destruct (t_phase tk); try done. injection Hs as <- <-. simpl.
        rewrite list_lookup_alter, Hi. simpl. eauto. }
      clear Hs. revert s2 os3 Hr2 Hi. induction l2 as [|l l2 IH]; intros s2 os3 Hr2 [tk Hi]; simpl in Hr2; [injection Hr2 as <- <-; eauto|].
      destruct (step s2 l) as [[s4 o4]|] eqn:Hs; [|done]. destruct (run s4 l2) as [[s5 os5]|] eqn:Hr4; [|done]. injection Hr2 as <- <-.
      eapply IH; [exact Hr4|]. destruct l as [p ds|t n name|t r|k err|k|n]; cbn [step] in Hs; repeat case_match; simplify_eq; simpl; eauto.
      { exists tk. by apply lookup_app_l_Some. }
      all: destruct (decide (k = i)) as [->|]; [rewrite list_lookup_alter, Hi; simpl; eauto|rewrite list_lookup_alter_ne by done; eauto]. }
    assert (cause ls s1 a ↔ LShutdown a ∈ ls ∨ ∃ i tk, LExit i true ∈ ls ∧ tasks s !! i = Some tk ∧ t_ns tk = a) as Hcause.
    { unfold cause. split; intros [H|(i & tk & Hin & Hi & Hn)]; auto; right.
      - destruct (Hmono _ _ Hi) as (tk' & Hi' & Hn'). exists i, tk'. split_and!; [done|done|congruence].
      - destruct (Hold _ Hin) as [tk1 Hi1]. destruct (Hmono _ _ Hi1) as (tk' & Hi' & Hn'). exists i, tk1. split_and!; [done|done|congruence]. }
    assert (is_cancelled (nss s) a ↔ is_cancelled (nss s1) a ∨ l = LShutdown a ∨ ∃ i tk, l = LExit i true ∧ tasks s !! i = Some tk ∧ t_ns tk = a) as Hcan.
    { destruct l as [p ds|t n name|t r|k err|k|n]; cbn [step] in Hs.
      - destruct (match p with Some _ => _ | None => true end); [|done]. injection Hs as <- <-. simpl.
        assert (is_cancelled (nss s1 ++ [Ns p ds ∅ 0 false]) a ↔ is_cancelled (nss s1) a) as ->; [|naive_solver].
        unfold is_cancelled. split; intros (x & Hx & Hc).
        + apply lookup_app_Some in Hx as [Hx|[_ Hx]]; [eauto|]. destruct (a - length (nss s1)); simplify_eq/=.
        + exists x. split; [by apply lookup_app_l_Some|done].
      - repeat case_match; simplify_eq; simpl; naive_solver.
      - repeat case_match; simplify_eq; simpl; rewrite ?cancelled_pwg, ?(cancelled_alter (add_wg 1)), ?(cancelled_alter (set_built _ _)) by done; naive_solver.
      - destruct (tasks s1 !! k) as [tk|] eqn:Hk; [|done]. destruct (t_phase tk); try done. injection Hs as <- <-. cbn [nss tasks].
        rewrite cancelled_alter by done. destruct err.
        + rewrite cancelled_set by (apply (w_tasks _ Hw); by eapply elem_of_list_lookup_2). split.
          * intros [->|]; [|auto]. right. right. exists k, (set_phase OwnDone tk). by rewrite list_lookup_alter, Hk.
          * intros [|[?|(i & tk' & [= <-] & Hi & <-)]]; [auto|done|]. rewrite list_lookup_alter, Hk in Hi. injection Hi as <-. auto.
        + naive_solver.
      - destruct (tasks s1 !! k) as [tk|] eqn:Hk; [|done]. destruct (t_phase tk); try done. injection Hs as <- <-. cbn [nss tasks].
        rewrite cancelled_pwg. naive_solver.
      - case_bool_decide; [|done]. injection Hs as <- <-. cbn [nss tasks]. rewrite cancelled_set by done. naive_solver. }
    rewrite Hcan, IH, Hcause. unfold cause. setoid_rewrite elem_of_app. setoid_rewrite elem_of_list_singleton. naive_solver.
Qed.
Lemma ctx_spec ls s os n : execution ls s os → n < length (nss s) →
  ctx_done (S n) (nss s) n = true ↔ ∃ a, encloses (nss s) a n ∧ cause ls s a.
Proof.
  intros Hr Hn. rewrite ctx_done_spec by (eauto using winv_run || lia). by setoid_rewrite (cancelled_run _ _ _ Hr).
Qed.

(** ** Who answers a Get *)
Definition bdefs (l : list ns) (j : nat) (name : string) : Prop := ∃ x, l !! j = Some x ∧ name ∈ defs x.
Record dinv (s : state) : Prop := DInv {
  d_built : ∀ j name v, bget (nss s) j name = Some v → bdefs (nss s) j name;
  d_open : ∀ j name, in_progress s j name → bdefs (nss s) j name }.
Lemma bdefs_alter f l i j name : (∀ x, defs (f x) = defs x) → bdefs (alter f i l) j name ↔ bdefs l j name.
Proof.
  intros Hf. unfold bdefs. destruct (decide (i = j)) as [->|].
  - rewrite list_lookup_alter. destruct (l !! j) as [x|]; simpl; [|done]. split; intros (y & [= <-] & Hd); eexists; (split; [done|]); by rewrite Hf in *.
  - by rewrite list_lookup_alter_ne.
Qed.
Lemma bdefs_pwg k i l j name : bdefs (add_parent_wg k i l) j name ↔ bdefs l j name.
Proof. unfold add_parent_wg. destruct (parent_of l i); [|done]. by apply bdefs_alter. Qed.
Lemma resolve_dinv s fuel n name : (∀ j name v, bget (nss s) j name = Some v → bdefs (nss s) j name) →
  (∀ n p, parent_of (nss s) n = Some p → p < n) → n < fuel → n < length (nss s) →
  (∀ j r, resolve fuel (nss s) n name = Some (j, r) ↔ nearest (nss s) name n j ∧ r = bget (nss s) j name).
Proof.
  intros Hd Hp. revert fuel. induction n as [n IH] using lt_wf_ind. intros fuel Hf Hn j r. destruct fuel as [|fuel]; [lia|]. cbn [resolve].
  destruct (lookup_lt_is_Some_2 (nss s) n Hn) as [x Hx]. rewrite Hx.
  assert (bget (nss s) n name = built x !! name) as Hb by (unfold bget; by rewrite Hx).
  assert (parent_of (nss s) n = parent x) as Hpx by (unfold parent_of; by rewrite Hx).
  destruct (built x !! name) as [v|] eqn:Hbx.
  - destruct (Hd _ _ _ Hb) as (y & Hy & Hny). rewrite Hx in Hy. injection Hy as <-. split.
    + intros [= <- <-]. split; [by eapply near_here|done].
    + intros [Hnear ->]. inversion Hnear as [n' x' Hx' Hin|n' x' p j' Hx' Hnin]; subst; [by rewrite Hb|congruence].
  - case_bool_decide as Hin.
    + split.
      * intros [= <- <-]. split; [by eapply near_here|done].
      * intros [Hnear ->]. inversion Hnear as [n' x' Hx' Hin'|n' x' p j' Hx' Hnin]; subst; [by rewrite Hb|congruence].
    + destruct (parent x) as [p|] eqn:Hpar.
      * specialize (Hp _ _ Hpx). rewrite (IH p) by lia. split; intros [Hnear ->]; (split; [|done]).
        -- by eapply near_up.
        -- inversion Hnear as [n' x' Hx' Hin'|n' x' p' j' Hx' Hnin Hp']; subst; [congruence|]. by simplify_eq.
      * split; [done|]. intros [Hnear ->]. inversion Hnear; subst; congruence.
Qed.
Lemma resolve_nearest fuel l n name j : resolve fuel l n name = Some (j, None) → bdefs l j name.
Proof.
  revert n. induction fuel as [|fuel IH]; intros n; cbn [resolve]; [done|]. destruct (l !! n) as [x|] eqn:Hx; [|done].
  destruct (built x !! name); [done|]. case_bool_decide; [intros [= <-]; by exists x|]. destruct (parent x); [apply IH|done].
Qed.
Lemma dinv_step s l s' o : winv s → dinv s → step s l = Some (s', o) → dinv s'.
Proof.
  intros Hw [H1 H2] Hstep. destruct l as [p ds|t n name|t r|i err|i|n]; cbn [step] in Hstep.
  - destruct (match p with Some _ => _ | None => true end); [|done]. injection Hstep as <- <-.
    assert (∀ j name, bdefs (nss s) j name → bdefs (nss s ++ [Ns p ds ∅ 0 false]) j name) as Hm.
    { intros j name (x & Hx & Hin). exists x. split; [by apply lookup_app_l_Some|done]. }
    split; cbn [nss threads tasks].
    + intros j name v Hb. apply Hm, (H1 _ _ v). unfold bget in *. destruct ((nss s ++ [Ns p ds ∅ 0 false]) !! j) as [x|] eqn:Hx; [|done].
      apply lookup_app_Some in Hx as [Hx|[_ Hx]]; [by rewrite Hx|]. destruct (j - length (nss s)); simplify_eq/=.
    + intros j name Hin. by apply Hm, H2.
  - case_bool_decide; [|done]. destruct (resolve (S n) (nss s) n name) as [[j [v|]]|] eqn:Hr; injection Hstep as <- <-; [done| |done].
    split; [done|]. cbn [set_stack nss threads tasks]. intros j' name' [t' Hin]. rewrite stack_set in Hin. case_decide; [|apply H2; by exists t'].
    apply elem_of_cons in Hin as [[= -> ->]|Hin]; [by eapply resolve_nearest|]. apply H2. by exists t.
  - destruct (stack s t) as [|[j name] st] eqn:Hst; [done|].
    assert (bdefs (nss s) j name) as Hdj by (apply H2; exists t; rewrite Hst; by left).
    assert (∀ n' tk j' name', in_progress (State n' (<[t := st]> (threads s)) tk) j' name' → in_progress s j' name') as Hsub.
    { intros n' tk j' name' [t' Hin]. exists t'. unfold stack in Hin. simpl in Hin. rewrite insert_stack in Hin. case_decide; [|done]. subst. rewrite Hst. by right. }
    assert (j < length (nss s)) as Hj by (destruct Hdj as (x & Hx & _); by eapply lookup_lt_Some).
    destruct r as [[v [|]]|]; injection Hstep as <- <-; split; cbn [set_stack nss threads tasks].
    + intros j' name' v'. rewrite bget_parent_wg, bget_alter_same, bget_set, bdefs_pwg, !bdefs_alter by done.
      case_decide as Hd; [|apply H1]. by destruct Hd as [<- <-].
    + intros j' name' Hin. rewrite bdefs_pwg, !bdefs_alter by done. by eapply H2, Hsub.
    + intros j' name' v'. rewrite bget_set, bdefs_alter by done. case_decide as Hd; [|apply H1]. by destruct Hd as [<- <-].
    + intros j' name' Hin. rewrite bdefs_alter by done. by eapply H2, Hsub.
    + done.
    + intros j' name' Hin. by eapply H2, Hsub.
  - destruct (tasks s !! i) as [tk|]; [|done]. destruct (t_phase tk); try done. injection Hstep as <- <-. split; cbn [nss threads tasks].
    + intros j name v. destruct err; rewrite !bget_alter_same, !bdefs_alter by done; apply H1.
    + intros j name Hin. destruct err; rewrite !bdefs_alter by done; by apply H2.
  - destruct (tasks s !! i) as [tk|]; [|done]. destruct (t_phase tk); try done. injection Hstep as <- <-. split; cbn [nss threads tasks].
    + intros j name v. rewrite bget_parent_wg, bdefs_pwg. apply H1.
    + intros j name Hin. rewrite bdefs_pwg. by apply H2.
  - case_bool_decide; [|done]. injection Hstep as <- <-. split; cbn [nss threads tasks].
    + intros j name v. rewrite bget_alter_same, bdefs_alter by done. apply H1.
    + intros j name Hin. rewrite bdefs_alter by done. by apply H2.
Qed.
Lemma dinv_run ls : ∀ s os, run init ls = Some (s, os) → dinv s.
Proof.
  induction ls as [|l ls IH] using rev_ind; intros s os.
  - intros [= <- <-]. split.
    + by intros j name v.
    + intros j name [t Hin]. unfold stack in Hin. simpl in Hin. rewrite lookup_empty in Hin. by apply elem_of_nil in Hin.
  - intros Hr. apply run_snoc in Hr as (s1 & os1 & o & Hr & Hs & ->). eapply dinv_step; [by eapply winv_run|by eapply IH|exact Hs].
Qed.
Lemma get_answered ls s os t n name : execution ls s os → n < length (nss s) →
  ∃ s' o, step s (LGet t n name) = Some (s', o) ∧
    (∀ j, (o = OStart j name ∨ ∃ v, o = OHit j name v) ↔ nearest (nss s) name n j) ∧
    (o = OUnknown name ↔ ∀ j, ¬ nearest (nss s) name n j).
Proof.
  intros Hr Hn. pose proof (winv_run _ _ _ Hr) as Hw. pose proof (dinv_run _ _ _ Hr) as Hd.
  pose proof (resolve_dinv s (S n) n name (d_built _ Hd) (w_parent _ Hw) ltac:(lia) Hn) as Hres.
  cbn [step]. rewrite bool_decide_true by done. destruct (resolve (S n) (nss s) n name) as [[j r]|].
  - destruct (proj1 (Hres j r) eq_refl) as [Hnear ->].
    assert (∀ j', nearest (nss s) name n j' → j' = j) as Hu.
    { intros j' Hj'. destruct (Hres j' (bget (nss s) j' name)) as [_ H]. specialize (H (conj Hj' eq_refl)). congruence. }
    destruct (bget (nss s) j name) as [v|]; (do 2 eexists; split; [done|]); (split; [|split; [done|intros H; by apply H in Hnear]]);
      intros j'; (split; [intros [|[? ?]]; by simplify_eq|intros ->%Hu; eauto]).
  - do 2 eexists; split; [done|]. assert (∀ j', ¬ nearest (nss s) name n j') as Hno.
    { intros j' Hj'. destruct (Hres j' (bget (nss s) j' name)) as [_ H]. by specialize (H (conj Hj' eq_refl)). }
    split; [|done]. intros j'. split; [by intros [|[? ?]]|]. by intros ?%Hno.
Qed.

(** A check of [exclusive] for concrete executions. *)
Definition free_of (s : state) (j : nat) (name : string) : bool :=
  forallb (λ p, negb (bool_decide ((j, name) ∈ p.2))) (map_to_list (threads s)).
Fixpoint exclusiveb (s : state) (ls : list label) : bool :=
  match ls with
  | [] => true
  | l :: ls =>
      match step s l with
      | Some (s', OStart j name) => free_of s j name && exclusiveb s' ls
      | Some (s', _) => exclusiveb s' ls
      | None => true
      end
  end.
Lemma free_of_spec s j name : free_of s j name = true → ¬ in_progress s j name.
Proof.
  unfold free_of. rewrite forallb_forall. intros H [t Hin]. unfold stack in Hin. destruct (threads s !! t) as [st|] eqn:Ht; simpl in Hin; [|by apply elem_of_nil in Hin].
  specialize (H (t, st)). rewrite <- elem_of_list_In, elem_of_map_to_list in H. specialize (H Ht). simpl in H.
  apply negb_true_iff, bool_decide_eq_false in H. done.
Qed.
Lemma exclusiveb_gen ls s0 : exclusiveb s0 ls = true → ∀ ls1 l ls2 s os s' j name, ls = ls1 ++ l :: ls2 → run s0 ls1 = Some (s, os) →
    step s l = Some (s', OStart j name) → ¬ in_progress s j name.
Proof.
  revert s0. induction ls as [|l0 ls IH]; intros s0 Hb ls1 l ls2 s os s' j name Heq Hr Hs; [by destruct ls1|]. cbn [exclusiveb] in Hb.
  destruct ls1 as [|l1 ls1]; simplify_eq/=.
  - rewrite Hs in Hb. apply andb_true_iff in Hb as [Hb _]. by apply free_of_spec.
  - destruct (step s0 l1) as [[s1 o1]|] eqn:Hs1; [|done]. destruct (run s1 ls1) as [[s2 os2]|] eqn:Hr1; [|done]. injection Hr as <- <-.
    assert (exclusiveb s1 (ls1 ++ l :: ls2) = true) as Hb' by (destruct o1; try done; by apply andb_true_iff in Hb as [_ ?]).
    by eapply IH.
Qed.
Lemma exclusiveb_sound ls : exclusiveb init ls = true → exclusive ls.
Proof. intros H ls1 l ls2 s os s' j name. by apply exclusiveb_gen. Qed.
