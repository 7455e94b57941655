(** * Proofs about the circuit breaker *)
From Verif Require Export Breaker_Model Breaker_Spec.
From Coq Require Import Lia Lqa.
From stdpp Require Export list.
Set Default Proof Using "Type".
Open Scope Z_scope.

Lemma count_app f l1 l2 : count f (l1 ++ l2) = count f l1 + count f l2.
Proof. unfold count. rewrite filter_app, app_length. lia. Qed.
Lemma count_cons f x l : count f (x :: l) = (if f x then 1 else 0) + count f l.
Proof. unfold count. rewrite filter_cons. destruct (f x); case_decide; simpl; try done; lia. Qed.
Lemma count_nil f : count f [] = 0.
Proof. done. Qed.
Lemma count_nonneg f l : 0 ≤ count f l.
Proof. unfold count. lia. Qed.
Lemma count_le l : count failed l ≤ count ended l.
Proof.
  induction l as [|x l IH]; [done|]. rewrite !count_cons.
  assert (failed x = true → ended x = true) by (unfold failed, ended; by destruct x.2 as [| |? [| |]|]).
  destruct (failed x), (ended x); intuition lia.
Qed.
Lemma count_zero f l : count f l = 0 ↔ ∀ x, x ∈ l → f x = false.
Proof.
  induction l as [|x l IH]; [rewrite count_nil; set_solver|]. rewrite count_cons. pose proof (count_nonneg f l). split.
  - intros Hc y [->|Hy]%elem_of_cons; [destruct (f x); [lia|done]|]. apply IH; [destruct (f x); lia|done].
  - intros Hx. rewrite (Hx x) by set_solver. rewrite Z.add_0_l. apply IH. intros. apply Hx. set_solver.
Qed.

Section breaker.
Context (C : conf).
Notation step := (step C).
Notation run := (run C).
Notation start := (start C).

Lemma run_app s es1 es2 : run s (es1 ++ es2) = match run s es1 with Some s' => run s' es2 | None => None end.
Proof. revert s. induction es1 as [|e es1 IH]; intros s; simpl; [done|]. destruct (step s e); [apply IH|done]. Qed.

(** Cases of a step. *)
Lemma step_inv s e s' :
  step s e = Some s' →
  match e with
  | Pass d => 0 < d ∧ s' = Sys (s_now s + d) (s_br s) (s_running s) (s_used s) (s_log s) ∧
      (∀ t, due (s_br s) = Some t → s_now s + d ≤ t + b_late C)
  | Tick => ∃ t, br_state (s_br s) = Closed (Some t) ∧ t ≤ s_now s ∧
      s' = Sys (s_now s) (Breaker (Closed (Some (t + default 0 (b_interval C)))) 0 0 (br_opened (s_br s))) (s_running s) (s_used s) (s_log s)
  | Timer => ∃ t, br_state (s_br s) = Open t ∧ t ≤ s_now s ∧
      s' = Sys (s_now s) (enter_half (s_br s)) (s_running s) (s_used s) (s_log s)
  | Call i => i ∉ s_used s ∧
      (ready (s_br s) = true ∧ s' = Sys (s_now s) (s_br s) ({[i]} ∪ s_running s) ({[i]} ∪ s_used s)
          (s_log s ++ [(s_now s, Called i); (s_now s, Invoked i)]) ∨
       ready (s_br s) = false ∧ s' = Sys (s_now s) (s_br s) (s_running s) ({[i]} ∪ s_used s)
          (s_log s ++ [(s_now s, Called i); (s_now s, Replied i ErrOpen)]))
  | Return i o => i ∈ s_running s ∧
      s' = Sys (s_now s) (done C (s_now s) o (s_br s)) (s_running s ∖ {[i]}) (s_used s)
             (s_log s ++ [(s_now s, Returned i o); (s_now s, Replied i (Passed o))]) end.
Proof.
  destruct e as [d| | |i|i o]; unfold Breaker_Model.step; cbv zeta.
  - destruct (d <=? 0) eqn:Ed; [done|]. destruct (due (s_br s)) as [t|] eqn:Et.
    + destruct (s_now s + d <=? t + b_late C) eqn:El; [|done]. intros [= <-]. split_and!; [lia|done|]. intros ? [= <-]. lia.
    + intros [= <-]. split_and!; [lia|done|]. done.
  - destruct (br_state (s_br s)) as [[t|]|t|]; try done. destruct (t <=? s_now s) eqn:Et; [|done]. intros [= <-].
    exists t. split_and!; [done|lia|done].
  - destruct (br_state (s_br s)) as [[t|]|t|]; try done. destruct (t <=? s_now s) eqn:Et; [|done]. intros [= <-].
    exists t. split_and!; [done|lia|done].
  - case_decide; [done|]. destruct (ready (s_br s)) eqn:Er; intros [= <-]; auto.
  - case_decide; [|done]. intros [= <-]. auto.
Qed.
(** What a step adds to the log. *)
Definition added (s : sys) (e : event) : list (Z * obs) :=
  match e with
  | Call i => [(s_now s, Called i); (s_now s, if ready (s_br s) then Invoked i else Replied i ErrOpen)]
  | Return i o => [(s_now s, Returned i o); (s_now s, Replied i (Passed o))]
  | _ => [] end.
Lemma step_log s e s' : step s e = Some s' → s_log s' = s_log s ++ added s e ∧ s_now s ≤ s_now s'.
Proof.
  intros H%step_inv. destruct e as [d| | |i|i o]; simpl.
  - destruct H as (?&->&_). simpl. rewrite app_nil_r. split; [done|lia].
  - destruct H as (?&_&_&->). simpl. by rewrite app_nil_r.
  - destruct H as (?&_&_&->). simpl. by rewrite app_nil_r.
  - destruct H as (_&[[-> ->]|[-> ->]]); simpl; done.
  - destruct H as (_&->). done.
Qed.
Lemma added_now s e x : x ∈ added s e → x.1 = s_now s.
Proof. destruct e; simpl; set_solver. Qed.
Lemma run_log es : ∀ s s', run s es = Some s' →
  ∃ d, s_log s' = s_log s ++ d ∧ s_now s ≤ s_now s' ∧ ∀ x, x ∈ d → s_now s ≤ x.1.
Proof.
  induction es as [|e es IH]; intros s s'; simpl.
  - intros [= <-]. exists []. rewrite app_nil_r. split_and!; [done|lia|set_solver].
  - destruct (step s e) as [s1|] eqn:E1; [|done]. intros H. destruct (step_log _ _ _ E1) as [Hl Hn].
    destruct (IH _ _ H) as (d&H1&H2&H3). exists (added s e ++ d). split_and!; [|lia|].
    + by rewrite H1, Hl, app_assoc.
    + intros x [Hx|Hx]%elem_of_app; [|apply H3 in Hx; lia]. apply added_now in Hx. lia.
Qed.

(** Where an entry of the log comes from. *)
Lemma log_split es : ∀ s s' l1 x l2,
  run s es = Some s' → s_log s' = s_log s ++ l1 ++ x :: l2 →
  ∃ es1 e es2 s1 s2 pre post d,
    es = es1 ++ e :: es2 ∧ run s es1 = Some s1 ∧ step s1 e = Some s2 ∧ run s2 es2 = Some s' ∧
    added s1 e = pre ++ x :: post ∧ s_log s ++ l1 = s_log s1 ++ pre ∧ l2 = post ++ d ∧ s_log s' = s_log s2 ++ d.
Proof.
  induction es as [|e es IH]; intros s s' l1 x l2; simpl.
  - intros [= <-] H. exfalso. apply (f_equal length) in H. rewrite !app_length in H. simpl in H. lia.
  - destruct (step s e) as [s1|] eqn:E1; [|done]. intros H Hl. destruct (step_log _ _ _ E1) as [Hl1 _].
    destruct (run_log _ _ _ H) as (d&Hd&_). rewrite Hl1, <-app_assoc in Hd. rewrite Hd in Hl. apply app_inv_head in Hl.
    assert ((∃ post, added s e = l1 ++ x :: post ∧ l2 = post ++ d) ∨ (∃ l1', l1 = added s e ++ l1' ∧ d = l1' ++ x :: l2)) as Hc.
    { clear -Hl. revert l1 Hl. induction (added s e) as [|a l IH]; intros l1 Hl; simpl in *.
      - right. exists l1. done.
      - destruct l1 as [|a' l1]; simpl in *.
        + injection Hl as -> <-. left. exists l. done.
        + injection Hl as -> Hl. destruct (IH l1 Hl) as [(post&->&->)|(l1'&->&->)]; [left; eauto|right; eauto]. }
    destruct Hc as [(post&Ha&->)|(l1'&->&->)].
    + exists [], e, es, s, s1, l1, post, d. split_and!; try done. rewrite Hd, Hl1. by rewrite app_assoc.
    + destruct (IH s1 s' l1' x l2 H) as (es1&e1&es2&s2&s3&pre&post&d'&->&H1&H2&H3&H4&H5&H6&H7).
      { by rewrite Hd, Hl1, <-app_assoc. }
      exists (e :: es1), e1, es2, s2, s3, pre, post, d'. split_and!; try done.
      * simpl. by rewrite E1.
      * rewrite <-H5, Hl1. by rewrite <-!app_assoc.
Qed.

(** ** Histories of single calls *)
Lemma history_app i l1 l2 : history i (l1 ++ l2) = history i l1 ++ history i l2.
Proof. unfold history. by rewrite filter_app, fmap_app. Qed.
Lemma history_one i t o : history i [(t, o)] = if of_call i (t, o) then [o] else [].
Proof. unfold history. rewrite filter_cons. case_decide as H; [by rewrite H|]. by destruct (of_call i (t, o)). Qed.
Definition shape (s : sys) (i : nat) : Prop :=
  if decide (i ∈ s_running s) then i ∈ s_used s ∧ history i (s_log s) = [Called i; Invoked i]
  else if decide (i ∈ s_used s) then history i (s_log s) = [Called i; Replied i ErrOpen] ∨
      ∃ o, history i (s_log s) = [Called i; Invoked i; Returned i o; Replied i (Passed o)]
  else history i (s_log s) = [].
Lemma history_two i t a b : history i [(t, a); (t, b)] = history i [(t, a)] ++ history i [(t, b)].
Proof. apply (history_app i [(t, a)] [(t, b)]). Qed.
Lemma shape_step s e s' i : shape s i → step s e = Some s' → shape s' i.
Proof.
  intros Hs H%step_inv. unfold shape in *. destruct e as [d| | |j|j o].
  - destruct H as (_&->&_). done.
  - destruct H as (?&_&_&->). done.
  - destruct H as (?&_&_&->). done.
  - destruct H as (Hj&[[_ ->]|[_ ->]]); simpl; rewrite history_app, history_two, !history_one; unfold of_call; simpl.
    + destruct (decide (i = j)) as [->|Hne].
      * rewrite decide_True by set_solver. rewrite !bool_decide_true by done. split; [set_solver|].
        destruct (decide (j ∈ s_running s)) as [Hr|Hr]; [by destruct Hs|]. rewrite decide_False in Hs by done. by rewrite Hs.
      * rewrite !bool_decide_false by done. rewrite app_nil_r. simpl. rewrite ?app_nil_r.
        destruct (decide (i ∈ s_running s)) as [Hr|Hr].
        -- rewrite decide_True by set_solver. set_solver.
        -- rewrite decide_False by set_solver. destruct (decide (i ∈ s_used s)).
           ++ rewrite decide_True by set_solver. done.
           ++ rewrite decide_False by set_solver. done.
    + destruct (decide (i = j)) as [->|Hne].
      * destruct (decide (j ∈ s_running s)) as [Hr|Hr]; [by destruct Hs|]. rewrite decide_False in Hs by done.
        rewrite decide_True by set_solver. rewrite !bool_decide_true by done. rewrite Hs. by left.
      * rewrite !bool_decide_false by done. simpl. rewrite ?app_nil_r.
        destruct (decide (i ∈ s_running s)) as [Hr|Hr]; [set_solver|]. destruct (decide (i ∈ s_used s)).
        ++ rewrite decide_True by set_solver. done.
        ++ rewrite decide_False by set_solver. done.
  - destruct H as (Hj&->); simpl; rewrite history_app, history_two, !history_one; unfold of_call; simpl.
    destruct (decide (i = j)) as [->|Hne].
    + rewrite decide_True in Hs by done. destruct Hs as [Hu Hs]. rewrite decide_False by set_solver. rewrite decide_True by done.
      rewrite !bool_decide_true by done. rewrite Hs. right. exists o. done.
    + rewrite !bool_decide_false by done. simpl. rewrite ?app_nil_r. destruct (decide (i ∈ s_running s)) as [Hr|Hr].
      * rewrite decide_True by set_solver. done.
      * rewrite decide_False by set_solver. done.
Qed.
Lemma shape_run es s s' i : shape s i → run s es = Some s' → shape s' i.
Proof.
  revert s. induction es as [|e es IH]; intros s Hs; simpl; [by intros [= <-]|].
  destruct (step s e) as [s1|] eqn:E1; [|done]. apply IH. by eapply shape_step.
Qed.

(** ** The counters *)
Lemma trip_iff b :
  0 ≤ br_succ b → 0 < br_fail b →
  should_trip C b = true ↔
  b_min C ≤ br_succ b + br_fail b ∧ (b_rate C * inject_Z (br_succ b + br_fail b) <= inject_Z (br_fail b))%Q.
Proof.
  intros Hs Hf. unfold should_trip. destruct (br_succ b + br_fail b) as [|n|n] eqn:En; [lia| |lia].
  destruct (Z.pos n <? b_min C) eqn:El.
  - split; [done|]. lia.
  - rewrite Qle_bool_iff. assert (b_min C ≤ Z.pos n) by lia.
    assert ((b_rate C <= br_fail b # n)%Q ↔ (b_rate C * inject_Z (Z.pos n) <= inject_Z (br_fail b))%Q) as ->; [|tauto].
    destruct (b_rate C) as [p q]. unfold Qle, Qmult, inject_Z. simpl. nia.
Qed.
(** Some earlier failure tripped the breaker. *)
Definition tripped (l : list (Z * obs)) : Prop :=
  ∃ l0 w t j e l', l = l0 ++ w ++ [(t, Returned j (Failure e))] ++ l' ∧
    too_many (b_min C) (b_rate C) (w ++ [(t, Returned j (Failure e))]) ∧
    ∀ d x, b_interval C = Some d → x ∈ w → failed x = true → t ≤ x.1 + d + b_late C.
Lemma tripped_app l l' : tripped l → tripped (l ++ l').
Proof.
  intros (l0&w&t&j&e&l1&->&H1&H2). exists l0, w, t, j, e, (l1 ++ l'). split_and!; [|done|done]. by rewrite <-!app_assoc.
Qed.
(** The breaker opened at a failure and no call was let through since. *)
Definition held (due : Z) (l : list (Z * obs)) : Prop :=
  ∃ l0 t j e l' k, l = l0 ++ [(t, Returned j (Failure e))] ++ l' ∧ due = t + b_backoff C k ∧ ∀ x, x ∈ l' → ¬ invoked x.
Definition inv (s : sys) : Prop :=
  (∀ t, due (s_br s) = Some t → s_now s ≤ t + b_late C) ∧ 0 ≤ br_succ (s_br s) ∧
  match br_state (s_br s) with
  | Closed t => ∃ p w, s_log s = p ++ w ∧ br_fail (s_br s) = count failed w ∧
      br_succ (s_br s) = count ended w - count failed w ∧
      (t = None ↔ b_interval C = None) ∧
      (∀ d t0, b_interval C = Some d → t = Some t0 → t0 ≤ s_now s + d) ∧
      ∀ d x t0, b_interval C = Some d → t = Some t0 → x ∈ w → failed x = true → t0 ≤ x.1 + d
  | HalfOpen => tripped (s_log s) ∧ ∃ p w, s_log s = p ++ w ∧ count failed w = 0 ∧ br_succ (s_br s) = count ended w
  | Open t => tripped (s_log s) ∧ held t (s_log s) end.
Lemma not_invoked_return t i o x : x ∈ [(t, Returned i o); (t, Replied i (Passed o))] → ¬ invoked x.
Proof. intros Hx. assert (x = (t, Returned i o) ∨ x = (t, Replied i (Passed o))) as [->| ->] by set_solver; auto. Qed.
Lemma held_app t l l' : held t l → (∀ x, x ∈ l' → ¬ invoked x) → held t (l ++ l').
Proof.
  intros (l0&u&j&e&l1&k&->&H1&H2) H. exists l0, u, j, e, (l1 ++ l'), k. split_and!; [by rewrite <-!app_assoc|done|].
  intros x [Hx|Hx]%elem_of_app; auto.
Qed.
(** An open breaker lets no call through before its timer is due. *)
Lemma open_blocks es : ∀ s s' u,
  br_state (s_br s) = Open u → run s es = Some s' →
  ∃ d, s_log s' = s_log s ++ d ∧ ∀ x, x ∈ d → x.1 < u → ¬ invoked x.
Proof.
  induction es as [|e es IH]; intros s s' u Hs; simpl.
  - intros [= <-]. exists []. rewrite app_nil_r. split; [done|set_solver].
  - destruct (step s e) as [s1|] eqn:E1; [|done]. intros H. destruct (step_log _ _ _ E1) as [Hl Hn].
    apply step_inv in E1. destruct e as [d| | |i|i o].
    + destruct E1 as (_&->&_). destruct ((λ H', IH _ s' u H' H) Hs) as (d'&Hd&Hx). eauto.
    + destruct E1 as (t&Ht&_). congruence.
    + destruct E1 as (t&Ht&Htn&->). assert (t = u) as -> by congruence. destruct (run_log _ _ _ H) as (d'&Hd&_&Hx). simpl in *.
      exists d'. split; [done|]. intros x Hin Hlt. apply Hx in Hin. lia.
    + destruct E1 as (_&[[Hr _]|[Hr ->]]); [unfold ready in Hr; by rewrite Hs in Hr|].
      destruct ((λ H', IH _ s' u H' H) Hs) as (d'&Hd&Hx). simpl in Hd. eexists. rewrite Hd, <-app_assoc. split; [done|].
      intros x [Hin|Hin]%elem_of_app; [|auto]. intros _.
      assert (x = (s_now s, Called i) ∨ x = (s_now s, Replied i ErrOpen)) as [->| ->] by set_solver; auto.
    + destruct E1 as (_&->). assert (br_state (done C (s_now s) o (s_br s)) = Open u) as Hs'.
      { destruct o; unfold done, success, fail; simpl; rewrite Hs; done. }
      destruct ((λ H', IH _ s' u H' H) Hs') as (d'&Hd&Hx). simpl in Hd. eexists. rewrite Hd, <-app_assoc. split; [done|].
      intros x [Hin|Hin]%elem_of_app; [|auto]. intros _. by eapply not_invoked_return.
Qed.
Lemma ready_success now b : ready b = true → ready (success C now b) = true.
Proof. destruct b as [st su f o]. unfold success, ready. destruct st; simpl; try done. intros _. by destruct (_ <=? _). Qed.
(** A breaker that is not open stays so while no call fails. *)
Lemma stays_ready es : ∀ s s' d,
  ready (s_br s) = true → run s es = Some s' → s_log s' = s_log s ++ d → count failed d = 0 →
  ∀ x, x ∈ d → ¬ rejected x.
Proof.
  induction es as [|e es IH]; intros s s' d Hs; simpl.
  - intros [= <-] Hd. assert (d = []) as ->; [|set_solver]. apply (f_equal length) in Hd. rewrite app_length in Hd.
    destruct d; [done|simpl in Hd; lia].
  - destruct (step s e) as [s1|] eqn:E1; [|done]. intros H Hd Hf. destruct (step_log _ _ _ E1) as [Hl Hn].
    destruct (run_log _ _ _ H) as (d1&Hd1&_). rewrite Hl, <-app_assoc in Hd1. rewrite Hd in Hd1. apply app_inv_head in Hd1 as ->.
    rewrite count_app in Hf. pose proof (count_nonneg failed (added s e)). pose proof (count_nonneg failed d1).
    assert (ready (s_br s1) = true) as Hr1.
    { apply step_inv in E1. destruct e as [u| | |i|i o].
      - destruct E1 as (_&->&_). done.
      - by destruct E1 as (?&_&_&->).
      - by destruct E1 as (?&_&_&->).
      - by destruct E1 as (_&[[_ ->]|[_ ->]]).
      - destruct E1 as (_&->). simpl. destruct o as [v|e|v].
        + by apply ready_success.
        + exfalso. simpl in Hf. rewrite !count_cons in Hf. simpl in Hf. rewrite count_nil in Hf. lia.
        + by apply ready_success. }
    intros x [Hx|Hx]%elem_of_app.
    + destruct e as [u| | |i|i o]; simpl in Hx; [by apply elem_of_nil in Hx..| |].
      * rewrite Hs in Hx. assert (x = (s_now s, Called i) ∨ x = (s_now s, Invoked i)) as [->| ->] by set_solver; auto.
      * assert (x = (s_now s, Returned i o) ∨ x = (s_now s, Replied i (Passed o))) as [->| ->] by set_solver; auto.
    + eapply (IH s1 s' d1); try done; [|lia]. by rewrite Hd, Hl, <-app_assoc.
Qed.
(** While it is tested, a breaker does not close before enough calls succeeded. *)
Definition probing (s : sys) (n : Z) : Prop :=
  (∃ u, br_state (s_br s) = Open u) ∨ br_state (s_br s) = HalfOpen ∧ br_succ (s_br s) ≤ n.
Lemma probing_run es : ∀ s s' d n,
  probing s n → 0 ≤ n → run s es = Some s' → s_log s' = s_log s ++ d → count failed d = 0 → n + count ended d < Z.of_nat (b_probes C) →
  probing s' (n + count ended d) ∧ (br_state (s_br s) = HalfOpen ∨ (∃ x, x ∈ d ∧ invoked x) → br_state (s_br s') = HalfOpen).
Proof.
  induction es as [|e es IH]; intros s s' d n Hs H0; simpl.
  - intros [= <-] Hd. assert (d = []) as ->. { apply (f_equal length) in Hd. rewrite app_length in Hd. destruct d; [done|simpl in Hd; lia]. }
    intros _ _. rewrite count_nil, Z.add_0_r. split; [done|]. intros [?|(?&?&_)]; [done|set_solver].
  - destruct (step s e) as [s1|] eqn:E1; [|done]. intros H Hd Hf Hc. destruct (step_log _ _ _ E1) as [Hl Hn].
    destruct (run_log _ _ _ H) as (d1&Hd1&_). rewrite Hl, <-app_assoc in Hd1. rewrite Hd in Hd1. apply app_inv_head in Hd1 as ->.
    rewrite count_app in Hf, Hc. pose proof (count_nonneg failed (added s e)). pose proof (count_nonneg failed d1).
    pose proof (count_nonneg ended (added s e)). pose proof (count_nonneg ended d1). rewrite count_app.
    assert (probing s1 (n + count ended (added s e)) ∧
            (br_state (s_br s) = HalfOpen ∨ (∃ x, x ∈ added s e ∧ invoked x) → br_state (s_br s1) = HalfOpen)) as [Hp1 Hp2].
    { clear IH H. apply step_inv in E1. unfold probing in *. destruct e as [u| | |i|i o]; simpl.
      - destruct E1 as (_&->&_). simpl. rewrite count_nil, Z.add_0_r. split; [done|]. intros [?|(?&?&_)]; [done|set_solver].
      - destruct E1 as (t&Ht&_). destruct Hs as [[? Hs]|[Hs _]]; congruence.
      - destruct E1 as (t&Ht&_&->). simpl. rewrite count_nil, Z.add_0_r. split; [|done]. right. split; [done|lia].
      - rewrite !count_cons, count_nil. simpl. replace (ended (s_now s, if ready (s_br s) then Invoked i else Replied i ErrOpen)) with false
          by (by destruct (ready (s_br s))). rewrite !Z.add_0_r.
        destruct E1 as (_&[[Hr ->]|[Hr ->]]); simpl.
        + split; [done|]. intros _. destruct Hs as [[? Hs]|[Hs _]]; [|done]. unfold ready in Hr. by rewrite Hs in Hr.
        + split; [done|]. intros [?|(x&Hx&Hin)]; [done|]. rewrite Hr in Hx.
          assert (x = (s_now s, Called i) ∨ x = (s_now s, Replied i ErrOpen)) as [->| ->] by set_solver; done.
      - destruct E1 as (_&->). simpl. simpl in Hf, Hc. rewrite !count_cons in Hf, Hc. rewrite !count_cons. rewrite count_nil in *. simpl in *.
        assert (done C (s_now s) o (s_br s) = success C (s_now s) (s_br s)) as ->.
        { destruct o; try done. simpl in Hf. lia. }
        unfold success. simpl. destruct Hs as [[u Hs]|[Hs Hle]]; rewrite Hs; simpl.
        + split; [left; eauto|]. intros [?|(x&Hx&Hin)]; [done|]. exfalso. by eapply not_invoked_return.
        + destruct (Z.of_nat (b_probes C) <=? br_succ (s_br s) + 1) eqn:El; [lia|]. simpl. split; [right; split; [done|lia]|done]. }
    destruct (IH s1 s' d1 (n + count ended (added s e)) Hp1) as [R1 R2]; try done; try lia.
    { by rewrite Hd, Hl, <-app_assoc. }
    rewrite Z.add_assoc. split; [done|]. intros [Hh|(x&[Hx|Hx]%elem_of_app&Hin)]; apply R2.
    + left. auto.
    + left. apply Hp2. eauto.
    + right. eauto.
Qed.

(** The first failure that makes too many trips the breaker, if no counter was reset before. *)
Definition early (l : list (Z * obs)) : Prop :=
  ∀ l1 t j e l2, l = l1 ++ [(t, Returned j (Failure e))] ++ l2 → ¬ too_many (b_min C) (b_rate C) (l1 ++ [(t, Returned j (Failure e))]).
Lemma first_closed es : ∀ s,
  run start es = Some s → early (s_log s) → (∀ d, b_interval C = Some d → s_now s < d) →
  br_opened (s_br s) = 0%nat ∧ br_state (s_br s) = Closed (b_interval C) ∧
  br_succ (s_br s) = count ended (s_log s) - count failed (s_log s) ∧ br_fail (s_br s) = count failed (s_log s).
Proof.
  induction es as [|e es IH] using rev_ind; intros s.
  - intros [= <-] _ _. unfold Breaker_Model.start, new_breaker, enter_closed. simpl. split_and!; [done| |by destruct (b_keep C)|done].
    by destruct (b_interval C).
  - rewrite run_app. destruct (run start es) as [s0|] eqn:E0; [|done]. simpl. destruct (step s0 e) as [s1|] eqn:E1; [|done].
    intros [= ->] He Hn. destruct (step_log _ _ _ E1) as [Hl Hn0].
    destruct (IH s0 eq_refl) as (I0&I1&I2&I3).
    { intros l1 t j e' l2 Heq. eapply He. by rewrite Hl, Heq, <-!app_assoc. }
    { intros d Hd. specialize (Hn d Hd). lia. }
    apply step_inv in E1. destruct e as [u| | |i|i o].
    + destruct E1 as (_&->&_). done.
    + destruct E1 as (t&Ht&Htn&->). rewrite I1 in Ht. injection Ht as Ht. specialize (Hn t Ht). simpl in Hn. lia.
    + destruct E1 as (t&Ht&_). congruence.
    + destruct E1 as (_&[[Hr ->]|[Hr ->]]); simpl; rewrite !count_app, !count_cons, !count_nil; simpl; split_and!; try done; lia.
    + destruct E1 as (_&->). simpl in *. rewrite !count_app, !count_cons, !count_nil. simpl.
      assert ((∃ e, o = Failure e) ∨ ¬ ∃ e, o = Failure e) as [[e ->]|Hok].
      { destruct o; [right|left|right]; eauto; by intros [? ?]. }
      * unfold done, fail. simpl. rewrite I1.
        pose proof (trip_iff (Breaker (Closed (b_interval C)) (br_succ (s_br s0)) (br_fail (s_br s0) + 1) (br_opened (s_br s0)))) as Ht.
        simpl in Ht. pose proof (count_le (s_log s0)). pose proof (count_nonneg failed (s_log s0)).
        specialize (Ht ltac:(lia) ltac:(lia)). destruct (should_trip _ _).
        -- exfalso. destruct Ht as [Ht _]. destruct (Ht eq_refl) as [T1 T2].
           eapply (He (s_log s0)); [done|]. unfold too_many. rewrite !count_app, !count_cons, !count_nil. simpl. rewrite Z.add_0_r.
           split; [lia|]. rewrite I2, I3 in T2.
           replace (count ended (s_log s0) - count failed (s_log s0) + (count failed (s_log s0) + 1)) with (count ended (s_log s0) + 1) in T2 by lia. done.
        -- simpl. split_and!; [done|done|lia|lia].
      * assert (done C (s_now s0) o (s_br s0) = success C (s_now s0) (s_br s0)) as -> by (destruct o; [done|exfalso; eauto|done]).
        assert (failed (s_now s0, Returned i o) = false) as Hf by (destruct o; [done|exfalso; eauto|done]).
        unfold success. simpl. rewrite I1. rewrite Hf. simpl. split_and!; [done|done|lia|lia].
Qed.

Context (HC : sensible C).

Lemma inv_start : inv start.
Proof using HC.
  destruct HC as (_&Hi&Hl&_). unfold inv, start, Breaker_Model.start, new_breaker, enter_closed. simpl. split_and!.
  - intros t. destruct (b_interval C) as [d|] eqn:Ed; simpl; [|done]. intros [= <-]. specialize (Hi d eq_refl). lia.
  - by destruct (b_keep C).
  - exists [], []. split_and!; [done|done|by destruct (b_keep C)|by destruct (b_interval C)| |set_solver].
    intros d t0 -> [= <-]. lia.
Qed.
Lemma inv_step s e s' : inv s → step s e = Some s' → inv s'.
Proof using HC.
  intros (I1&I2&I3) H%step_inv. destruct HC as (Hb&Hi&Hl&Hp). destruct e as [d| | |i|i o].
  - destruct H as (Hd&->&Ht). unfold inv. simpl. split_and!; [done|done|].
    destruct (br_state (s_br s)) as [t|t|]; [|done|done]. destruct I3 as (p&w&H1&H2&H3&H4&H5&H6). exists p, w. split_and!; try done.
    intros d' t0 Hd' ->. specialize (H5 d' t0 Hd' eq_refl). lia.
  - destruct H as (t&Ht&Hn&->). unfold inv. simpl. rewrite Ht in I3. destruct I3 as (p&w&Hlog&_&_&Hiff&_).
    destruct (b_interval C) as [d|] eqn:Ed; [|exfalso; by destruct Hiff as [_ Hiff]; specialize (Hiff eq_refl)].
    simpl. specialize (Hi d eq_refl). split_and!.
    + intros ? [= <-]. assert (s_now s ≤ t + b_late C) by (apply I1; unfold due; by rewrite Ht). lia.
    + lia.
    + exists (s_log s), []. rewrite app_nil_r. split_and!; [done|done|done|done| |set_solver]. intros ? ? [= <-] [= <-]. lia.
  - destruct H as (t&Ht&Hn&->). unfold inv. simpl. rewrite Ht in I3. destruct I3 as [I3 _]. split_and!; [done|lia|done|].
    exists (s_log s), []. rewrite app_nil_r. done.
  - destruct H as (Hj&Hc).
    assert (∀ y, (y = Invoked i ∧ ready (s_br s) = true ∨ y = Replied i ErrOpen ∧ ready (s_br s) = false) →
      ∀ r u, inv (Sys (s_now s) (s_br s) r u (s_log s ++ [(s_now s, Called i); (s_now s, y)]))) as Hgen.
    { intros y Hy r u. unfold inv. simpl. split_and!; [done|done|].
      assert (∀ w, count failed (w ++ [(s_now s, Called i); (s_now s, y)]) = count failed w ∧
                   count ended (w ++ [(s_now s, Called i); (s_now s, y)]) = count ended w) as Hcnt.
      { intros w. rewrite !count_app, !count_cons, !count_nil. destruct Hy as [[-> _]|[-> _]]; simpl; lia. }
      destruct (br_state (s_br s)) as [t|t|] eqn:Es.
      - destruct I3 as (p&w&Hlog&H1&H2&H3&H5&H4). exists p, (w ++ [(s_now s, Called i); (s_now s, y)]).
        destruct (Hcnt w) as [-> ->]. split_and!; [by rewrite Hlog, app_assoc|done|done|done|done|].
        intros d x t0 Hd Ht [Hx|Hx]%elem_of_app Hf; [by eapply H4|]. exfalso.
        assert (x = (s_now s, Called i) ∨ x = (s_now s, y)) as [->| ->] by set_solver; [done|].
        by destruct Hy as [[-> _]|[-> _]].
      - destruct I3 as [I3 I4]. destruct Hy as [[-> Hy]|[-> Hy]]; [unfold ready in Hy; by rewrite Es in Hy|].
        split; [by apply tripped_app|]. apply held_app; [done|]. intros x Hx.
        assert (x = (s_now s, Called i) ∨ x = (s_now s, Replied i ErrOpen)) as [->| ->] by set_solver; auto.
      - destruct I3 as [I3 (p&w&Hlog&H1&H2)]. split; [by apply tripped_app|].
        exists p, (w ++ [(s_now s, Called i); (s_now s, y)]). destruct (Hcnt w) as [-> ->].
        split_and!; [by rewrite Hlog, app_assoc|done|done]. }
    destruct Hc as [[Hr ->]|[Hr ->]]; apply Hgen; auto.
  - destruct H as (Hj&->). set (new := [(s_now s, Returned i o); (s_now s, Replied i (Passed o))]).
    assert ((∃ e, o = Failure e) ∨ ¬ ∃ e, o = Failure e) as [[e ->]|Hok].
    { destruct o; [right|left|right]; eauto; by intros [? ?]. }
    + assert (∀ w, count failed (w ++ new) = count failed w + 1 ∧ count ended (w ++ new) = count ended w + 1) as Hcnt.
      { intros w. unfold new. rewrite !count_app, !count_cons, !count_nil. simpl. lia. }
      assert (∀ w, count failed (w ++ [(s_now s, Returned i (Failure e))]) = count failed w + 1 ∧
                   count ended (w ++ [(s_now s, Returned i (Failure e))]) = count ended w + 1) as Hcnt1.
      { intros w. rewrite !count_app, !count_cons, !count_nil. simpl. lia. }
      unfold done, fail. simpl. unfold inv. simpl. destruct (br_state (s_br s)) as [t|t|] eqn:Es.
      * destruct I3 as (p&w&Hlog&H1&H2&H3&H5&H4).
        pose proof (trip_iff (Breaker (Closed t) (br_succ (s_br s)) (br_fail (s_br s) + 1) (br_opened (s_br s))) I2) as Htr.
        simpl in Htr. rewrite H1 in Htr. pose proof (count_nonneg failed w). specialize (Htr ltac:(lia)). rewrite <-H1 in Htr.
        destruct (should_trip _ _).
        -- destruct Htr as [Htr _]. destruct (Htr eq_refl) as [T1 T2]. simpl. split_and!.
           ++ intros ? [= <-]. specialize (Hb (br_opened (s_br s))). lia.
           ++ done.
           ++ exists p, w, (s_now s), i, e, [(s_now s, Replied i (Passed (Failure e)))].
              unfold too_many. destruct (Hcnt1 w) as [-> ->]. split_and!.
              ** unfold new. by rewrite Hlog, <-!app_assoc.
              ** lia.
              ** rewrite H1, H2 in T2.
                 replace (count ended w - count failed w + (count failed w + 1)) with (count ended w + 1) in T2 by lia. done.
              ** intros d x Hd Hx Hf. destruct t as [t|]; [|destruct H3 as [H3 _]; specialize (H3 eq_refl); congruence].
                 specialize (H4 d x t Hd eq_refl Hx Hf).
                 assert (s_now s ≤ t + b_late C) by (apply I1; unfold due; by rewrite Es). lia.
           ++ exists (s_log s), (s_now s), i, e, [(s_now s, Replied i (Passed (Failure e)))], (br_opened (s_br s)).
              split_and!; [done|done|]. intros x Hx. assert (x = (s_now s, Replied i (Passed (Failure e)))) as -> by set_solver. auto.
        -- simpl. split_and!; [intros u Hu; apply I1; unfold due; by rewrite Es|done|].
           exists p, (w ++ new). destruct (Hcnt w) as [-> ->]. split_and!; [by rewrite Hlog, app_assoc|lia|lia|done|done|].
           intros d x t0 Hd -> [Hx|Hx]%elem_of_app Hf; [by eapply H4|].
           assert (x.1 = s_now s) as -> by (unfold new in Hx; set_solver).
           by apply H5.
      * destruct I3 as [I3 I4]. simpl. split_and!; [intros u Hu; apply I1; unfold due; by rewrite Es|done|by apply tripped_app|].
        apply held_app; [done|]. apply not_invoked_return.
      * destruct I3 as [I3 _]. simpl. split_and!.
        -- intros ? [= <-]. specialize (Hb (br_opened (s_br s))). lia.
        -- done.
        -- by apply tripped_app.
        -- exists (s_log s), (s_now s), i, e, [(s_now s, Replied i (Passed (Failure e)))], (br_opened (s_br s)).
           split_and!; [done|done|]. intros x Hx. assert (x = (s_now s, Replied i (Passed (Failure e)))) as -> by set_solver. auto.
    + assert (∀ w, count failed (w ++ new) = count failed w ∧ count ended (w ++ new) = count ended w + 1) as Hcnt.
      { intros w. unfold new. rewrite !count_app, !count_cons, !count_nil. destruct o; simpl; try lia. exfalso. eauto. }
      assert (done C (s_now s) o (s_br s) = success C (s_now s) (s_br s)) as -> by (destruct o; [done|exfalso; eauto|done]).
      unfold success, inv. simpl. destruct (br_state (s_br s)) as [t|t|] eqn:Es; simpl.
      * split_and!; [intros u Hu; apply I1; unfold due; by rewrite Es|lia|].
        destruct I3 as (p&w&Hlog&H1&H2&H3&H5&H4). exists p, (w ++ new). destruct (Hcnt w) as [-> ->].
        split_and!; [by rewrite Hlog, app_assoc|lia|lia|done|done|].
        intros d x t0 Hd Ht [Hx|Hx]%elem_of_app Hf; [by eapply H4|]. exfalso. apply Hok. unfold new in Hx.
        assert (x = (s_now s, Returned i o) ∨ x = (s_now s, Replied i (Passed o))) as [->| ->] by set_solver; [|done].
        destruct o; try done. eauto.
      * destruct I3 as [I3 I4]. split_and!; [intros u Hu; apply I1; unfold due; by rewrite Es|lia|by apply tripped_app|].
        apply held_app; [done|]. apply not_invoked_return.
      * destruct I3 as [I3 (p&w&Hlog&H1&H2)]. destruct (Hcnt w) as [C1 C2]. case_match.
        -- unfold enter_closed. simpl. split_and!.
           ++ intros t. destruct (b_interval C) as [d|]; simpl; [|done]. intros [= <-]. specialize (Hi d eq_refl). lia.
           ++ destruct (b_keep C); lia.
           ++ destruct (b_keep C).
              ** exists p, (w ++ new). split_and!; [by rewrite Hlog, app_assoc|lia|lia|by destruct (b_interval C)|intros ? ? -> [= <-]; lia|].
                 intros d x t0 Hd Ht Hx Hf. exfalso. assert (count failed (w ++ new) = 0) as H0 by lia.
                 rewrite count_zero in H0. rewrite H0 in Hf; done.
              ** exists (s_log s ++ new), []. rewrite app_nil_r. split_and!; [done|done|done|by destruct (b_interval C)|intros ? ? -> [= <-]; lia|set_solver].
        -- simpl. split_and!; [done|lia|by apply tripped_app|]. exists p, (w ++ new). split_and!; [by rewrite Hlog, app_assoc|lia|lia].
Qed.

Lemma inv_run es : ∀ s s', inv s → run s es = Some s' → inv s'.
Proof using HC.
  induction es as [|e es IH]; intros s s' Hs; simpl; [by intros [= <-]|].
  destruct (step s e) as [s1|] eqn:E1; [|done]. apply IH. by eapply inv_step.
Qed.

(** A rejected call: the state at that time. *)
Lemma rejected_at l l1 t i l2 :
  logs C l → l = l1 ++ [(t, Replied i ErrOpen)] ++ l2 →
  ∃ s l0, inv s ∧ l1 = s_log s ++ [(s_now s, Called i)] ∧ t = s_now s ∧ l0 = s_log s ∧ ∃ d, br_state (s_br s) = Open d.
Proof using HC.
  intros (es&s&Hr&<-) Hl. destruct (log_split es start s l1 (t, Replied i ErrOpen) l2 Hr Hl)
    as (es1&e&es2&s1&s2&pre&post&d&->&H1&H2&H3&H4&H5&H6&H7). simpl in H5.
  assert (inv s1) as Hi by (eapply inv_run; [by apply inv_start|done]).
  exists s1, (s_log s1). destruct e as [u| | |j|j o]; simpl in H4.
  - by destruct pre.
  - by destruct pre.
  - by destruct pre.
  - destruct pre as [|a [|b pre]]; simplify_eq/=; [|by destruct pre]. destruct (ready (s_br s1)) eqn:Er; simplify_eq.
    split_and!; try done. unfold ready in Er. destruct (br_state (s_br s1)) as [?|u|]; eauto; done.
  - destruct pre as [|a [|b pre]]; simplify_eq/=. by destruct pre.
Qed.

End breaker.
