(** * Properties of the circuit breaker (C79) *)
From Verif Require Import Breaker_Model Breaker_Spec Breaker_Proof.
From Coq Require Import Lia.
From stdpp Require Import list.
Open Scope Z_scope.

(** C79. A call through the breaker is either rejected without the service being called, or calls the service exactly
    once and returns what the service returned. *)
Theorem C79_transparent :
  ∀ (C : conf) (l : list (Z * obs)) (i : nat),
    logs C l →
    history i l = [] ∨ history i l = [Called i; Replied i ErrOpen] ∨ history i l = [Called i; Invoked i] ∨
    ∃ o, history i l = [Called i; Invoked i; Returned i o; Replied i (Passed o)].
Proof.
  intros C l i (es&s&Hr&<-). assert (shape (start C) i) as H0.
  { unfold shape. simpl. rewrite !decide_False by set_solver. done. }
  pose proof (shape_run C es _ _ i H0 Hr) as H. unfold shape in H. repeat case_decide; intuition auto.
Qed.
Print Assumptions C79_transparent.

(** Calls are rejected only after a stretch in which at least min_reqs calls ended and at least the configured
    fraction of them failed, the failures all within one reset interval of the last of them. *)
Theorem C79_rejects_only_after :
  ∀ (C : conf) (l1 l2 : list (Z * obs)) t i,
    sensible C → logs C (l1 ++ [(t, Replied i ErrOpen)] ++ l2) →
    ∃ l0 w t0 j e l', l1 = l0 ++ w ++ [(t0, Returned j (Failure e))] ++ l' ∧
      too_many (b_min C) (b_rate C) (w ++ [(t0, Returned j (Failure e))]) ∧
      ∀ d x, b_interval C = Some d → x ∈ w → failed x = true → t0 ≤ x.1 + d + b_late C.
Proof.
  intros C l1 l2 t i HC Hl. destruct (rejected_at C HC _ l1 t i l2 Hl eq_refl) as (s&l0&(_&_&I3)&->&_&_&d&Ho).
  rewrite Ho in I3. destruct I3 as [Ht _]. apply (tripped_app C _ [(s_now s, Called i)]) in Ht. exact Ht.
Qed.
Print Assumptions C79_rejects_only_after.

(** So if no call fails, none is rejected; nor if the configured rate is more than one. *)
Theorem C79_healthy :
  ∀ (C : conf) (l : list (Z * obs)) x,
    sensible C → logs C l → (∀ y, y ∈ l → failed y = false) ∨ (1 < b_rate C)%Q → x ∈ l → ¬ rejected x.
Proof.
  intros C l [t o] HC Hl Hno (l1&l2&->)%elem_of_list_split Hr. destruct o as [| | |i [|]]; try done.
  destruct (C79_rejects_only_after C l1 l2 t i HC Hl) as (l0&w&t0&j&e&l'&->&[Hm Hw]&_).
  destruct Hno as [Hno|Hrate].
  - specialize (Hno (t0, Returned j (Failure e))). set_solver.
  - pose proof (count_le (w ++ [(t0, Returned j (Failure e))])) as Hle.
    assert (0 < count failed (w ++ [(t0, Returned j (Failure e))])).
    { rewrite count_app, count_cons, count_nil. simpl. pose proof (count_nonneg failed w). lia. }
    set (n := count ended _) in *. set (f := count failed _) in *. destruct (b_rate C) as [p q].
    unfold Qle, Qlt, Qmult, inject_Z in *. simpl in *. nia.
Qed.
Print Assumptions C79_healthy.

(** A call is rejected only within the library's backoff after a call that failed, and no call was let through in
    between. *)
Theorem C79_rejects_while :
  ∀ (C : conf) (l1 l2 : list (Z * obs)) t i,
    sensible C → logs C (l1 ++ [(t, Replied i ErrOpen)] ++ l2) →
    ∃ l0 t0 j e l', l1 = l0 ++ [(t0, Returned j (Failure e))] ++ l' ∧ (∀ x, x ∈ l' → ¬ invoked x) ∧
      ∃ k, t ≤ t0 + b_backoff C k + b_late C.
Proof.
  intros C l1 l2 t i HC Hl. destruct (rejected_at C HC _ l1 t i l2 Hl eq_refl) as (s&l0&(I1&_&I3)&->&->&_&d&Ho).
  rewrite Ho in I3. destruct I3 as [_ Hh].
  apply (held_app C _ _ [(s_now s, Called i)]) in Hh as (l0'&t0&j&e&l'&k&Heq&->&Hni).
  - exists l0', t0, j, e, l'. split_and!; [done|done|]. exists k. apply I1. unfold due. by rewrite Ho.
  - intros x Hx. assert (x = (s_now s, Called i)) as -> by set_solver. auto.
Qed.
Print Assumptions C79_rejects_while.

(** The breaker does trip: if within the first reset interval a failure makes the failures too many, for the first
    time, then no call reaches the service until the backoff has passed. *)
Theorem C79_trips :
  ∀ (C : conf) (l1 l2 : list (Z * obs)) t j e,
    logs C (l1 ++ [(t, Returned j (Failure e))] ++ l2) →
    too_many (b_min C) (b_rate C) (l1 ++ [(t, Returned j (Failure e))]) →
    (∀ a u k e' b, l1 = a ++ [(u, Returned k (Failure e'))] ++ b →
       ¬ too_many (b_min C) (b_rate C) (a ++ [(u, Returned k (Failure e'))])) →
    (∀ d, b_interval C = Some d → t < d) →
    ∀ x, x ∈ l2 → x.1 < t + b_backoff C 0 → ¬ invoked x.
Proof.
  intros C l1 l2 t j e (es&s&Hr&Hl) [Hm Hw] He Hd.
  destruct (log_split C es (start C) s l1 (t, Returned j (Failure e)) l2 Hr Hl)
    as (es1&ev&es2&s1&s2&pre&post&d&->&H1&H2&H3&H4&H5&H6&H7). simpl in H5.
  destruct ev as [u| | |i|i o]; simpl in H4.
  { by destruct pre. } { by destruct pre. } { by destruct pre. }
  { destruct pre as [|a [|b pre]]; simpl in H4; simplify_eq; [by destruct (ready (s_br s1))|by destruct pre]. }
  destruct pre as [|a [|b pre]]; simpl in H4; simplify_eq; [|by destruct pre].
  rewrite app_nil_r in *. apply step_inv in H2 as [_ ->].
  destruct (first_closed C es1 s1 H1 He Hd) as (I0&I1&I2&I3).
  assert (br_state (done C (s_now s1) (Failure e) (s_br s1)) = Open (s_now s1 + b_backoff C 0)) as Hopen.
  { unfold done, fail. simpl. rewrite I1.
    pose proof (trip_iff C (Breaker (Closed (b_interval C)) (br_succ (s_br s1)) (br_fail (s_br s1) + 1) (br_opened (s_br s1)))) as Ht.
    simpl in Ht. pose proof (count_le (s_log s1)). pose proof (count_nonneg failed (s_log s1)).
    rewrite !count_app, !count_cons, !count_nil in Hm. rewrite !count_app, !count_cons, !count_nil in Hw. simpl in Hm, Hw.
    rewrite Z.add_0_r in Hm, Hw.
    destruct Ht as [_ Ht]; [lia|lia|]. rewrite Ht.
    - simpl. by rewrite I0.
    - split; [lia|]. rewrite I2, I3.
      replace (count ended (s_log s1) - count failed (s_log s1) + (count failed (s_log s1) + 1)) with (count ended (s_log s1) + 1) by lia. done. }
  destruct ((λ H', open_blocks C es2 _ s _ H' H3) Hopen) as (d'&Hd'&Hx). simpl in *.
  rewrite Hl in Hd'. rewrite <-!app_assoc in Hd'. apply app_inv_head in Hd'. simpl in Hd'. simplify_eq.
  intros x [->|Hin]%elem_of_cons Hlt; [auto|]. by apply Hx.
Qed.
Print Assumptions C79_trips.

(** Recovery: once a call was let through and as long as no call fails, no call is rejected. *)
Theorem C79_recovers :
  ∀ (C : conf) (l1 l2 : list (Z * obs)) t i,
    logs C (l1 ++ [(t, Invoked i)] ++ l2) → (∀ y, y ∈ l2 → failed y = false) → ∀ x, x ∈ l2 → ¬ rejected x.
Proof.
  intros C l1 l2 t i (es&s&Hr&Hl) Hf.
  destruct (log_split C es (start C) s l1 (t, Invoked i) l2 Hr Hl)
    as (es1&ev&es2&s1&s2&pre&post&d&->&H1&H2&H3&H4&H5&H6&H7). simpl in H5.
  destruct ev as [u| | |k|k o]; simpl in H4.
  { by destruct pre. } { by destruct pre. } { by destruct pre. }
  - destruct pre as [|a [|b pre]]; simpl in H4; simplify_eq; [|by destruct pre]. destruct (ready (s_br s1)) eqn:Er; simplify_eq.
    apply step_inv in H2 as (_&[[_ ->]|[Hr2 _]]); [|congruence].
    eapply (stays_ready C es2); [|exact H3|exact H7|]; [done|]. by apply count_zero.
  - destruct pre as [|a [|b pre]]; simpl in H4; simplify_eq. by destruct pre.
Qed.
Print Assumptions C79_recovers.

(** One failure of a call that was let through to test the service is enough to reject calls again: after a
    rejection, while no other call failed and fewer than [b_probes] calls ended. *)
Theorem C79_reopens :
  ∀ (C : conf) (l1 l2 l3 : list (Z * obs)) t i u j e B,
    logs C (l1 ++ [(t, Replied i ErrOpen)] ++ l2 ++ [(u, Returned j (Failure e))] ++ l3) →
    (∀ y, y ∈ l2 → failed y = false) → count ended l2 < Z.of_nat (b_probes C) → (∃ y, y ∈ l2 ∧ invoked y) →
    (∀ k, B ≤ b_backoff C k) →
    ∀ x, x ∈ l3 → x.1 < u + B → ¬ invoked x.
Proof.
  intros C l1 l2 l3 t i u j e B (es&s&Hr&Hl) Hf Hc Hinv HB.
  destruct (log_split C es (start C) s l1 (t, Replied i ErrOpen) (l2 ++ [(u, Returned j (Failure e))] ++ l3) Hr Hl)
    as (es1&ev&es2&s1&s2&pre&post&d&->&H1&H2&H3&H4&H5&H6&H7). simpl in H5.
  destruct ev as [v| | |k|k o]; simpl in H4.
  { by destruct pre. } { by destruct pre. } { by destruct pre. }
  2: { destruct pre as [|a [|b pre]]; simpl in H4; simplify_eq. by destruct pre. }
  destruct pre as [|a [|b pre]]; simpl in H4; simplify_eq; [|by destruct pre]. destruct (ready (s_br s1)) eqn:Er; simplify_eq.
  assert (s_br s2 = s_br s1) as Hb2 by (apply step_inv in H2 as (_&[[Hr2 _]|[_ ->]]); [congruence|done]).
  assert (probing s2 0) as Hp.
  { left. unfold ready in Er. rewrite Hb2. destruct (br_state (s_br s1)) as [|w|]; eauto; done. }
  clear H1 H2 Hl Hr. simpl in H6. subst d.
  destruct (log_split C es2 s2 s l2 (u, Returned j (Failure e)) l3 H3 H7)
    as (es3&ev&es4&s3&s4&pre&post&d&->&H1&H2&H8&H9&H10&H11&H12).
  destruct ev as [v| | |k|k o]; simpl in H9.
  { by destruct pre. } { by destruct pre. } { by destruct pre. }
  { destruct pre as [|a [|b pre]]; simpl in H9; simplify_eq; [by destruct (ready (s_br s3))|by destruct pre]. }
  destruct pre as [|a [|b pre]]; simpl in H9; simplify_eq; [|by destruct pre].
  rewrite app_nil_r in H10.
  destruct (probing_run C es3 s2 s3 l2 0 Hp) as [_ Hh]; [lia|done|done|by apply count_zero|lia|].
  specialize (Hh (or_intror Hinv)). apply step_inv in H2 as [_ ->].
  assert (br_state (done C (s_now s3) (Failure e) (s_br s3)) = Open (s_now s3 + b_backoff C (br_opened (s_br s3)))) as Hopen.
  { unfold done, fail. simpl. by rewrite Hh. }
  destruct ((λ H', open_blocks C es4 _ s _ H' H8) Hopen) as (d'&Hd'&Hx). simpl in *.
  rewrite H12 in Hd'. apply app_inv_head in Hd'. subst d'.
  intros x [->|Hin]%elem_of_cons Hlt; [auto|]. apply Hx; [done|]. specialize (HB (br_opened (s_br s3))). lia.
Qed.
Print Assumptions C79_reopens.

(** ** What the documentation promises and the plugin does not do *)
Definition conf1 (min : Z) (rate : Q) : conf := Conf min rate (Some 10) (λ _, 500) 4 true 0.
Lemma conf1_sensible min rate : sensible (conf1 min rate).
Proof. split_and!; simpl; [lia| |lia|lia]. intros d [= <-]. lia. Qed.
Definition of_run (C : conf) (es : list event) : list (Z * obs) := match run C (start C) es with Some s => s_log s | None => [] end.
Definition runs (C : conf) (es : list event) : bool := match run C (start C) es with Some _ => true | None => false end.
Lemma of_run_logs C es l : runs C es = true → of_run C es = l → logs C l.
Proof. unfold runs, of_run. intros H <-. destruct (run C (start C) es) as [s|] eqn:E; [|done]. exists es, s. done. Qed.

(** "The block is removed after the completion of the fixed duration interval": calls are still rejected many
    intervals later; the interval has no influence on how long they are. *)
Theorem C79_interval_refuted :
  ∃ (C : conf) (l1 l2 : list (Z * obs)) t0 t j e i,
    sensible C ∧ b_interval C = Some 10 ∧ logs C (l1 ++ [(t0, Returned j (Failure e))] ++ l2 ++ [(t, Replied i ErrOpen)]) ∧
    t0 + 400 ≤ t ∧ ∀ x, x ∈ l2 → ¬ invoked x.
Proof.
  set (C := conf1 1 (1 # 2)).
  exists C, [(0, Called 1); (0, Invoked 1)], [(0, Replied 1 (Passed (Failure 7))); (400, Called 2)], 0, 400, 1%nat, 7, 2%nat.
  split_and!; [apply conf1_sensible|done| |lia|].
  - apply (of_run_logs C [Call 1; Return 1 (Failure 7); Pass 400; Call 2]); by vm_compute.
  - intros x Hx. assert (x = (0, Replied 1 (Passed (Failure 7))) ∨ x = (400, Called 2)) as [->| ->] by set_solver; auto.
Qed.
Print Assumptions C79_interval_refuted.

(** "Trips when failure_rate percentage of requests fail": not if the last call of the required number succeeds. *)
Theorem C79_rate_refuted :
  ∃ (C : conf) (l : list (Z * obs)) t i,
    sensible C ∧ logs C (l ++ [(t, Called i); (t, Invoked i)]) ∧ too_many (b_min C) (b_rate C) l ∧
    ∀ x, x ∈ l → x.1 = t.
Proof.
  set (C := conf1 2 (1 # 2)).
  exists C, [(0, Called 1); (0, Invoked 1); (0, Returned 1 (Failure 7)); (0, Replied 1 (Passed (Failure 7)));
             (0, Called 2); (0, Invoked 2); (0, Returned 2 (Success 5)); (0, Replied 2 (Passed (Success 5)))], 0, 3%nat.
  split_and!; [apply conf1_sensible| |by vm_compute|].
  - apply (of_run_logs C [Call 1; Return 1 (Failure 7); Call 2; Return 2 (Success 5); Call 3]); by vm_compute.
  - set_solver.
Qed.
Print Assumptions C79_rate_refuted.

(** A call that panics counts as a success: a service that does nothing but panic is never cut off. *)
Theorem C79_panic_refuted :
  ∀ (C : conf) (l : list (Z * obs)) x,
    sensible C → logs C l → (∀ i o t, (t, Returned i o) ∈ l → ∃ v, o = Panic v) → x ∈ l → ¬ rejected x.
Proof.
  intros C l x HC Hl Hp. apply (C79_healthy C l x HC Hl). left. intros [t o] Hy. destruct o as [| |i o|]; try done.
  destruct (Hp i o t Hy) as [v ->]. done.
Qed.
Print Assumptions C79_panic_refuted.
Example C79_panic_ex :
  of_run (conf1 1 (1 # 10)) [Call 1; Return 1 (Panic 1); Call 2; Return 2 (Panic 1); Call 3] =
  [(0, Called 1); (0, Invoked 1); (0, Returned 1 (Panic 1)); (0, Replied 1 (Passed (Panic 1)));
   (0, Called 2); (0, Invoked 2); (0, Returned 2 (Panic 1)); (0, Replied 2 (Passed (Panic 1))); (0, Called 3); (0, Invoked 3)].
Proof. by vm_compute. Qed.

(** A breaker that trips, is tested, opens again, is tested and closes. *)
Definition trip : list event :=
  [Call 1; Call 2; Return 1 (Success 5); Pass 3; Return 2 (Failure 7); Call 3; Pass 500; Timer; Call 4; Return 4 (Failure 8); Call 5;
   Pass 500; Timer; Call 6; Call 7; Call 8; Call 9; Return 6 (Success 1); Return 7 (Success 1); Return 8 (Success 1); Return 9 (Success 1); Call 10].
Definition verdicts (l : list (Z * obs)) : list (nat * bool) :=
  omap (λ x, match x.2 with Invoked i => Some (i, true) | Replied i ErrOpen => Some (i, false) | _ => None end) l.
Example C79_ex :
  verdicts (of_run (conf1 2 (1 # 2)) trip) =
  [(1, true); (2, true); (3, false); (4, true); (5, false); (6, true); (7, true); (8, true); (9, true); (10, true)]%nat.
Proof. by vm_compute. Qed.
(** The hypotheses of the theorems above in this execution. *)
Example C79_ex_trips :
  let C := conf1 2 (1 # 2) in
  let l1 := [(0, Called 1); (0, Invoked 1); (0, Called 2); (0, Invoked 2); (0, Returned 1 (Success 5)); (0, Replied 1 (Passed (Success 5)))] in
  logs C (l1 ++ [(3, Returned 2 (Failure 7))] ++ drop 7 (of_run C trip)) ∧
  too_many (b_min C) (b_rate C) (l1 ++ [(3, Returned 2 (Failure 7))]) ∧ sensible C.
Proof.
  cbv zeta. split; [|split; [by vm_compute|apply conf1_sensible]].
  apply (of_run_logs (conf1 2 (1 # 2)) trip); by vm_compute.
Qed.
