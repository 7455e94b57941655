(** * Properties of the in-memory queue (C26) *)
From Verif Require Import Copy_Model Queue_Model Queue_Spec Queue_Proof.
From Coq Require Import Lia.

(** C26. For every capacity and every schedule of pushes, pops, blocking and cancellation by any
    number of callers: the items accepted by Push, in order, are the items taken by Pop, in order,
    followed by the items still queued; and the queue never holds more than its capacity. *)
Theorem C26_queue_fifo :
  ∀ cap ms, let q := qrun (new_queue cap) ms in
    pushed_items (q_log q) = popped_items (q_log q) ++ q_buf q ∧ length (q_buf q) ≤ cap.
Proof. exact queue_fifo. Qed.
Print Assumptions C26_queue_fifo.

(** A call reports failure only if its caller's context was cancelled. *)
Theorem C26_failure_only_if_cancelled :
  ∀ cap ms o, o ∈ q_log (qrun (new_queue cap) ms) →
    match o with PushFailed t _ | PopFailed t => t ∈ q_dead (qrun (new_queue cap) ms) | _ => True end.
Proof. exact queue_failures. Qed.
Print Assumptions C26_failure_only_if_cancelled.

(** With room, Push succeeds at once, and with an item, Pop does, cancelled or not; a blocked caller
    whose turn comes when there is room (an item) completes; a cancelled blocked caller can always
    give up, leaving the queue unchanged. *)
Theorem C26_progress :
  ∀ q t,
    (∀ x, phase q t = QIdle → length (q_buf q) < q_cap q →
       q_log (qstep q (QPush t x)) = q_log q ++ [Pushed t x]) ∧
    (∀ d x rest, phase q t = QIdle → q_buf q = x :: rest →
       q_log (qstep q (QPop t d)) = q_log q ++ [Popped t x (copy_to x d)]) ∧
    (∀ x, phase q t = QPushing x → length (q_buf q) < q_cap q →
       q_log (qstep q (QRun t)) = q_log q ++ [Pushed t x] ∧ phase (qstep q (QRun t)) t = QIdle) ∧
    (∀ d x rest, phase q t = QPopping d → q_buf q = x :: rest →
       q_log (qstep q (QRun t)) = q_log q ++ [Popped t x (copy_to x d)] ∧ phase (qstep q (QRun t)) t = QIdle) ∧
    (t ∈ q_dead q → phase q t ≠ QIdle →
       phase (qstep q (QGiveUp t)) t = QIdle ∧ q_buf (qstep q (QGiveUp t)) = q_buf q).
Proof.
  intros q t. split_and!; intros; [by apply push_room|by eapply pop_avail|by apply push_progress|
    by eapply pop_progress|by apply giveup_progress].
Qed.
Print Assumptions C26_progress.

(** Without room Push blocks, and without an item Pop does: the caller is neither told anything nor is the queue
    changed, until its turn comes or it gives up. *)
Theorem C26_blocks :
  ∀ q t m, (∃ x, phase q t = QIdle ∧ m = QPush t x ∧ q_cap q ≤ length (q_buf q)) ∨ (∃ d, phase q t = QIdle ∧ m = QPop t d ∧ q_buf q = []) →
    q_log (qstep q m) = q_log q ∧ q_buf (qstep q m) = q_buf q ∧ phase (qstep q m) t ≠ QIdle ∧
    (∀ m', m' ≠ QRun t → m' ≠ QGiveUp t → phase (qstep (qstep q m) m') t = phase (qstep q m) t) ∧
    q_log (qstep (qstep q m) (QRun t)) = q_log q.
Proof.
  assert (∀ q t p, phase (set_phase q t p) t = p) as Hph by (intros; unfold phase, set_phase; simpl; by rewrite lookup_insert).
  assert (∀ q t p m', p ≠ QIdle → phase q t = p → m' ≠ QRun t → m' ≠ QGiveUp t → phase (qstep q m') t = phase q t) as Hkeep.
  { clear. intros q t p m' Hp Hph Hr Hg. unfold phase in *.
    destruct m' as [t' x|t' d|t'|t'|t']; simpl; unfold phase;
      (destruct (decide (t' = t)) as [->|Hne]; [|repeat case_match; simpl; rewrite ?lookup_insert_ne by done; done]); try done.
    - rewrite Hph. by destruct p.
    - rewrite Hph. by destruct p. }
  intros q t m H.
  assert (∃ p, qstep q m = set_phase q t p ∧ p ≠ QIdle ∧ q_log (qstep (set_phase q t p) (QRun t)) = q_log q) as (p & -> & Hne & Hrun).
  { destruct H as [(x & Hp & -> & Hcap)|(d & Hp & -> & Hbuf)].
    - exists (QPushing x). cbn [qstep]. rewrite Hp, Hph, bool_decide_false by lia. split_and!; [done..|]. simpl. rewrite bool_decide_false by lia. done.
    - exists (QPopping d). cbn [qstep]. rewrite Hp, Hph, Hbuf. split_and!; [done..|]. simpl. by rewrite Hbuf. }
  rewrite Hph. split_and!; [done..| |done].
  intros m' H1 H2. rewrite <-(Hph q t p) at 2. eapply Hkeep; [exact Hne|by rewrite Hph|done..].
Qed.
Print Assumptions C26_blocks.

Definition item (n : nat) : gval := VBase 1 n.
Example C26_nonvacuous :
  let q := qrun (new_queue 2)
    [QPop 9 (DPtr TAny); QPush 1 (item 1); QPush 1 (item 2); QPush 2 (item 3); QRun 9; QRun 2; QPush 3 (item 4);
     QCancel 3; QGiveUp 3; QPop 8 (DPtr (TBase 1))] in
  pushed_items (q_log q) = [item 1; item 2; item 3] ∧ popped_items (q_log q) = [item 1; item 2] ∧
  q_buf q = [item 3] ∧ PushFailed 3 (item 4) ∈ q_log q.
Proof. vm_compute. split_and!; [done..|]. do 4 right. left. Qed.

(** An item popped into a destination of another type is removed from the queue but reaches nobody. *)
Theorem C26_popped_items_are_received_refuted :
  ¬ (∀ cap ms, let q := qrun (new_queue cap) ms in
       length (received (q_log q)) = length (popped_items (q_log q))).
Proof. intros H. specialize (H 10 [QPush 0 (item 1); QPop 1 (DPtr (TBase 2))]). by vm_compute in H. Qed.
Print Assumptions C26_popped_items_are_received_refuted.
