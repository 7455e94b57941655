From Verif Require Import Copy_Model Copy_Spec.

Lemma wf_slice t vs : wf (VSlice t vs) ↔ Forall (λ v, has_type v t) vs ∧ Forall wf vs.
Proof.
  simpl. assert (fold_right (λ v P, wf v ∧ P) True vs ↔ Forall wf vs) as ->; [|done].
  induction vs as [|v vs IH]; simpl; [by split|]. rewrite IH, Forall_cons. done.
Qed.

Lemma copy_elems_ok cp vs acc ws b :
  copy_elems cp vs acc = (Some ws, b) →
  ∃ ws', ws = rev acc ++ ws' ∧ Forall2 (λ v w, cp v = COk w) vs ws'.
Proof.
  revert acc. induction vs as [|v vs IH]; intros acc; simpl.
  - intros [= <- <-]. exists []. rewrite app_nil_r. by split.
  - destruct (cp v) as [w| |] eqn:E; [|done|done]. intros H. apply IH in H as (ws'&->&Hf).
    exists (w :: ws'). simpl. rewrite <- app_assoc. split; [done|]. by constructor.
Qed.

Lemma copy_elems_complete cp vs ws acc :
  Forall2 (λ v w, cp v = COk w) vs ws → copy_elems cp vs acc = (Some (rev acc ++ ws), false).
Proof.
  intros H. revert acc. induction H as [|v w vs ws Hvw _ IH]; intros acc; simpl.
  - by rewrite app_nil_r.
  - rewrite Hvw, IH. simpl. by rewrite <- app_assoc.
Qed.

Lemma has_type_int t z : type_of (VInt z) = Some t → has_type (VInt z) t.
Proof. intros [= <-]. simpl. by eexists. Qed.

Lemma copy_sound v t w :
  wf v → copy_result v t = COk w → erase w = erase v ∧ has_type w t ∧ wf w.
Proof.
  revert v w. induction t as [|n| |t IH]; intros v w Hwf.
  - simpl. destruct v as [|z|m d|te vs]; try done.
    intros [= <-]. split_and!; [done|by eexists|done].
  - simpl. destruct v as [|z|m d|te vs]; try done. case_bool_decide as H; [|done].
    intros [= <-]. simpl in H. injection H as ->. split_and!; [done|by eexists|done].
  - simpl. destruct v; try done; intros [= <-]; done.
  - destruct v as [|z|m d|te vs]; cbn [copy_result]; try done.
    destruct (copy_elems (λ x, copy_result x t) vs []) as [[ws|] b] eqn:E; [|by destruct b].
    intros [= <-]. apply copy_elems_ok in E as (ws'&->&Hf). simpl rev. rewrite app_nil_l.
    apply wf_slice in Hwf as [Ht Hw].
    assert (Forall2 (λ v w, erase w = erase v ∧ has_type w t ∧ wf w) vs ws') as Hall.
    { clear Ht. induction Hf as [|v w vs ws Hvw _ IH2]; [constructor|].
      apply Forall_cons in Hw as [Hwv Hw]. constructor; [|by apply IH2].
      by apply IH. }
    split_and!.
    + simpl. f_equal. clear -Hall. induction Hall as [|v w vs ws [H _] _ IH]; [done|]. simpl. by f_equal.
    + simpl. eexists. split; [done|]. clear -Hall. induction Hall as [|v w vs ws (_&?&_) _ IH]; by constructor.
    + apply wf_slice. split; clear -Hall; induction Hall as [|v w vs ws (_&?&?) _ IH]; by constructor.
Qed.

(** Copying to a variable of the value's own type, when no nil is inside, succeeds. *)
Lemma nil_free_slice t vs : nil_free (VSlice t vs) ↔ Forall nil_free vs.
Proof.
  simpl. induction vs as [|v vs IH]; simpl; [by split|]. rewrite IH, Forall_cons. done.
Qed.

Lemma copy_complete v t :
  wf v → nil_free v → has_type v t → ∃ w, copy_result v t = COk w ∧ erase w = erase v.
Proof.
  revert v. induction t as [|n| |t IH]; intros v Hwf Hnf Ht.
  - destruct Ht as [z ->]. eexists. by split.
  - destruct Ht as [d ->]. simpl. rewrite bool_decide_true by done. eexists. by split.
  - simpl. destruct v; try done; eexists; by split.
  - destruct Ht as (vs&->&Hvs). cbn [copy_result].
    apply wf_slice in Hwf as [_ Hw]. apply nil_free_slice in Hnf.
    assert (∃ ws, Forall2 (λ v w, copy_result v t = COk w) vs ws ∧ map erase ws = map erase vs) as (ws&Hf&He).
    { induction vs as [|v vs IHv]; [exists []; by split|].
      apply Forall_cons in Hvs as [? ?]. apply Forall_cons in Hw as [? ?]. apply Forall_cons in Hnf as [? ?].
      destruct IHv as (ws&?&?); [done..|]. destruct (IH v) as (w&?&?); [done..|].
      exists (w :: ws). split; [by constructor|]. simpl. by f_equal. }
    rewrite (copy_elems_complete _ _ _ [] Hf). simpl rev. rewrite app_nil_l.
    eexists. split; [done|]. simpl. by rewrite He.
Qed.

(** A panic only comes from a nil. *)
Lemma copy_panic v t : copy_result v t = CPanic → ¬ nil_free v.
Proof.
  revert v. induction t as [|n| |t IH]; intros v.
  - simpl. destruct v; try done; try case_bool_decide; try done. intros _ [].
  - simpl. destruct v; try done; try case_bool_decide; try done. intros _ [].
  - simpl. destruct v; try done. intros _ [].
  - destruct v as [|z|m d|te vs]; cbn [copy_result]; try case_bool_decide; try done; [by intros _ []|].
    destruct (copy_elems (λ x, copy_result x t) vs []) as [[ws|] b] eqn:E; [done|].
    destruct b; [|done]. intros _ Hnf%nil_free_slice.
    revert E. generalize (@nil gval). induction Hnf as [|v vs Hv _ IHv]; intros acc; simpl; [done|].
    destruct (copy_result v t) eqn:Ec; [apply IHv|done|]. by apply IH in Ec.
Qed.
