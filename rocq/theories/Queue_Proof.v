From Coq Require Import ZifyBool ZifyNat ZifyN Lia.
From Verif Require Import Queue_Model Queue_Spec.

Lemma pushed_app l l' : pushed_items (l ++ l') = pushed_items l ++ pushed_items l'.
Proof. unfold pushed_items. apply omap_app. Qed.
Lemma popped_app l l' : popped_items (l ++ l') = popped_items l ++ popped_items l'.
Proof. unfold popped_items. apply omap_app. Qed.

Definition qinv (cap : nat) (q : queue) : Prop :=
  q_cap q = cap ∧ length (q_buf q) ≤ cap ∧
  pushed_items (q_log q) = popped_items (q_log q) ++ q_buf q.

Lemma do_push_inv cap q t x : qinv cap q → length (q_buf q) < q_cap q → qinv cap (do_push q t x).
Proof.
  intros (H1&H2&H3) Hlt. unfold qinv, do_push. simpl. rewrite app_length, pushed_app, popped_app. simpl.
  split_and!; [done|lia|]. rewrite H3, app_nil_r. by rewrite app_assoc.
Qed.
Lemma do_pop_inv cap q t d x rest : qinv cap q → q_buf q = x :: rest → qinv cap (do_pop q t d x rest).
Proof.
  intros (H1&H2&H3) Hb. unfold qinv, do_pop. simpl. rewrite pushed_app, popped_app. simpl.
  rewrite Hb in *. simpl in *. split_and!; [done|lia|]. rewrite app_nil_r, H3. by rewrite <- app_assoc.
Qed.
Lemma log_other_inv cap q q' o :
  qinv cap q → q_cap q' = q_cap q → q_buf q' = q_buf q → q_log q' = q_log q ++ o →
  pushed_items o = [] → popped_items o = [] → qinv cap q'.
Proof.
  intros (H1&H2&H3) E1 E2 E3 E4 E5. unfold qinv. rewrite E1, E2, E3, pushed_app, popped_app, E4, E5, !app_nil_r.
  done.
Qed.

Lemma qinv_step cap q m : qinv cap q → qinv cap (qstep q m).
Proof.
  intros H. destruct m as [t x|t d|t|t|t]; simpl.
  - destruct (phase q t); try done. case_bool_decide; [by apply do_push_inv|].
    eapply (log_other_inv cap q _ []); try done. simpl. by rewrite app_nil_r.
  - destruct (phase q t); try done. destruct (q_buf q) as [|y rest] eqn:E; [|by eapply do_pop_inv].
    eapply (log_other_inv cap q _ []); try done. simpl. by rewrite app_nil_r.
  - destruct (phase q t); try done.
    + case_bool_decide; [by apply do_push_inv|done].
    + destruct (q_buf q) as [|y rest] eqn:E; [done|by eapply do_pop_inv].
  - case_bool_decide; [|done]. destruct (phase q t); try done.
    + by eapply (log_other_inv cap q _ [PushFailed t x]).
    + by eapply (log_other_inv cap q _ [PopFailed t]).
  - eapply (log_other_inv cap q _ []); try done. simpl. by rewrite app_nil_r.
Qed.

Lemma qinv_run cap q ms : qinv cap q → qinv cap (qrun q ms).
Proof.
  unfold qrun. revert q. induction ms as [|m ms IH]; intros q Hq; [done|]. simpl.
  apply IH. by apply qinv_step.
Qed.

Lemma queue_fifo cap ms :
  let q := qrun (new_queue cap) ms in
  pushed_items (q_log q) = popped_items (q_log q) ++ q_buf q ∧ length (q_buf q) ≤ cap.
Proof. simpl. destruct (qinv_run cap (new_queue cap) ms) as (_&?&?); [|done]. split; simpl; [done|]. split; [lia|done]. Qed.

(** Failures only for cancelled contexts *)
Definition cinv (q : queue) : Prop :=
  ∀ o, o ∈ q_log q → match o with PushFailed t _ | PopFailed t => t ∈ q_dead q | _ => True end.
Lemma cinv_step q m : cinv q → cinv (qstep q m).
Proof.
  intros H. unfold cinv. destruct m as [t x|t d|t|t|t]; simpl.
  - destruct (phase q t); try done. case_bool_decide; [|done]. simpl. intros o [?|Ho%elem_of_list_singleton]%elem_of_app; [by apply H|by subst o].
  - destruct (phase q t); try done. destruct (q_buf q); [done|]. simpl. intros o [?|Ho%elem_of_list_singleton]%elem_of_app; [by apply H|by subst o].
  - destruct (phase q t); try done.
    + case_bool_decide; [|done]. simpl. intros o [?|Ho%elem_of_list_singleton]%elem_of_app; [by apply H|by subst o].
    + destruct (q_buf q); [done|]. simpl. intros o [?|Ho%elem_of_list_singleton]%elem_of_app; [by apply H|by subst o].
  - case_bool_decide; [|done]. destruct (phase q t); try done; simpl;
      (intros o [?|Ho%elem_of_list_singleton]%elem_of_app; [by apply H|by subst o]).
  - intros o Ho. specialize (H o Ho). destruct o; try done; set_solver.
Qed.
Lemma cinv_run q ms : cinv q → cinv (qrun q ms).
Proof.
  unfold qrun. revert q. induction ms as [|m ms IH]; intros q Hq; [done|]. simpl. apply IH. by apply cinv_step.
Qed.
Lemma queue_failures cap ms o :
  o ∈ q_log (qrun (new_queue cap) ms) →
  match o with PushFailed t _ | PopFailed t => t ∈ q_dead (qrun (new_queue cap) ms) | _ => True end.
Proof. apply (cinv_run (new_queue cap) ms). intros o' Ho. by apply elem_of_nil in Ho. Qed.

(** Progress *)
Lemma push_progress q t x :
  phase q t = QPushing x → length (q_buf q) < q_cap q →
  q_log (qstep q (QRun t)) = q_log q ++ [Pushed t x] ∧ phase (qstep q (QRun t)) t = QIdle.
Proof.
  intros Hp Hl. simpl. rewrite Hp, bool_decide_true by done. simpl. split; [done|].
  unfold phase. simpl. by rewrite lookup_insert.
Qed.
Lemma pop_progress q t d x rest :
  phase q t = QPopping d → q_buf q = x :: rest →
  q_log (qstep q (QRun t)) = q_log q ++ [Popped t x (copy_to x d)] ∧ phase (qstep q (QRun t)) t = QIdle.
Proof.
  intros Hp Hl. simpl. rewrite Hp, Hl. simpl. split; [done|]. unfold phase. simpl. by rewrite lookup_insert.
Qed.
Lemma push_room q t x :
  phase q t = QIdle → length (q_buf q) < q_cap q → q_log (qstep q (QPush t x)) = q_log q ++ [Pushed t x].
Proof. intros Hp Hl. simpl. by rewrite Hp, bool_decide_true. Qed.
Lemma pop_avail q t d x rest :
  phase q t = QIdle → q_buf q = x :: rest → q_log (qstep q (QPop t d)) = q_log q ++ [Popped t x (copy_to x d)].
Proof. intros Hp Hl. simpl. by rewrite Hp, Hl. Qed.
Lemma giveup_progress q t :
  t ∈ q_dead q → phase q t ≠ QIdle → phase (qstep q (QGiveUp t)) t = QIdle ∧ q_buf (qstep q (QGiveUp t)) = q_buf q.
Proof.
  intros Hd Hp. simpl. rewrite bool_decide_true by done. destruct (phase q t); try done; simpl;
    (split; [|done]); unfold phase; simpl; by rewrite lookup_insert.
Qed.
