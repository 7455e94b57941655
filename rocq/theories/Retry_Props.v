(** * Properties of the retry wrappers (C32-C35) *)
From Coq Require Import Lia.
From stdpp Require Import strings.
From Coq Require Sorted.
From Verif Require Import Retry_Model Retry_Spec Retry_Proof.

(** C32. With Max > 0 the wrapper makes k calls, 1 <= k <= Max, numbered 1..k; all but the last
    failed; the returned result is that of the last call; and the last call succeeded unless Max
    calls were made. *)
Theorem C32_retry_first_success :
  ∀ (V E : Type) (out : nat → result V E) (max : Z) (zero : V),
    (0 < max)%Z →
    ∃ k, 1 ≤ k ∧ (Z.of_nat k ≤ max)%Z ∧
      retry_plain out max zero = (attempts k, out (k - 1)) ∧
      (∀ j, j < k - 1 → fails (out j)) ∧
      (succeeds (out (k - 1)) ∨ Z.of_nat k = max).
Proof. intros. by apply retry_plain_spec. Qed.
Print Assumptions C32_retry_first_success.

(** The fixed-delay variant makes the same calls and sleeps once after every failed call. *)
Theorem C32_fixed_delay :
  ∀ (V E : Type) (out : nat → result V E) (max d : Z) (zero : V),
    (0 < max)%Z →
    ∃ k, 1 ≤ k ∧ (Z.of_nat k ≤ max)%Z ∧
      retry_fixed out max d zero =
        (flat_map (λ j, ECall (Z.of_nat j + 1) ::
             match rerr (out j) with None => [] | Some _ => [ESleep d] end) (seq 0 k), out (k - 1)) ∧
      (∀ j, j < k - 1 → fails (out j)) ∧
      (succeeds (out (k - 1)) ∨ Z.of_nat k = max).
Proof. intros. by apply retry_fixed_spec. Qed.
Print Assumptions C32_fixed_delay.

Definition flaky (n : nat) : nat → result nat string :=
  λ i, if bool_decide (i < n) then Result i (Some "down") else Result i None.

Example C32_nonvacuous :
  retry_plain (flaky 2) 10 0 = ([ECall 1; ECall 2; ECall 3], Result 2 None) ∧
  retry_plain (flaky 9) 3 0 = ([ECall 1; ECall 2; ECall 3], Result 2 (Some "down")) ∧
  retry_fixed (flaky 1) 5 7 0 = ([ECall 1; ESleep 7; ECall 2], Result 1 None).
Proof. by vm_compute. Qed.

(** With Max <= 0 the service is never called and the caller is told that the call succeeded. *)
Theorem C32_success_means_called_refuted :
  ¬ (∀ (out : nat → result nat string) max zero,
       succeeds (snd (retry_plain out max zero)) → fst (retry_plain out max zero) ≠ []).
Proof. intros H. by apply (H (flaky 5) 0%Z 0). Qed.
Print Assumptions C32_success_means_called_refuted.

(** The documentation promises a delay between any pair of tries; the code also sleeps after the
    last failed try. *)
Theorem C32_sleep_only_between_tries_refuted :
  ¬ (∀ (out : nat → result nat string) max d zero es d',
       fst (retry_fixed out max d zero) ≠ es ++ [ESleep d']).
Proof. intros H. by apply (H (flaky 5) 1%Z 7%Z 0 [ECall 1] 7%Z). Qed.
Print Assumptions C32_sleep_only_between_tries_refuted.

(** C33. For every positive starting delay and every limit up to 2^62 ns (146 years), the wrapper
    terminates within 63 iterations: the waits are start, 2*start, 4*start, ... (with jitter: between
    half of that and that), each nominal wait is below the limit and follows a failed call, and it
    stops at the first success, or at the first failure whose nominal wait would reach the limit, or
    when the context is cancelled. *)
Theorem C33_exponential_backoff :
  ∀ (V E : Type) (out : nat → result V E) (jit : option (nat → Z → Z)) (cancelled : nat → bool)
    (cerr : E) (delay limit : Z) (fuel : nat),
    jitter_ok jit → (jit ≠ None → 2 ≤ delay)%Z → (0 < delay)%Z → (limit ≤ 2 ^ 62)%Z → 63 ≤ fuel →
    ∃ ws r, retry_backoff out jit cancelled cerr delay limit fuel = BDone (interleave 0 ws) r ∧
      (∀ j w, ws !! j = Some w →
         wait_ok jit (delay * 2 ^ Z.of_nat j) w ∧ (delay * 2 ^ Z.of_nat j < limit)%Z ∧
         fails (out j) ∧ cancelled j = false) ∧
      (let k := length ws in
       (r = out k ∧ (succeeds (out k) ∨ (limit ≤ delay * 2 ^ Z.of_nat k)%Z)) ∨
       (cancelled k = true ∧ fails (out k) ∧ (delay * 2 ^ Z.of_nat k < limit)%Z ∧
        r = Result (rval (out k)) (Some cerr))).
Proof. intros. by apply retry_backoff_spec. Qed.
Print Assumptions C33_exponential_backoff.

Example C33_nonvacuous :
  retry_backoff (flaky 99) None (λ _, false) "cancelled" 100 1000 63 =
    BDone [ECall 1; ESleep 100; ECall 2; ESleep 200; ECall 3; ESleep 400; ECall 4; ESleep 800; ECall 5]
      (Result 4 (Some "down")).
Proof. by vm_compute. Qed.

(** With a zero starting delay and a permanently failing service it never terminates. *)
Theorem C33_zero_delay_terminates_refuted :
  ∀ (V E : Type) (out : nat → result V E) (cerr : E) (limit : Z),
    (0 < limit)%Z → (∀ i, fails (out i)) →
    ∀ fuel, retry_backoff out None (λ _, false) cerr 0 limit fuel = BFuel.
Proof. intros. by apply backoff_zero_diverges. Qed.
Print Assumptions C33_zero_delay_terminates_refuted.

(** With jitter, a starting delay of 1ns makes the generated code panic. *)
Theorem C33_jitter_never_panics_refuted :
  ¬ (∀ (out : nat → result nat string) jit delay limit,
       jitter_ok jit → (0 < delay)%Z → (limit ≤ 2 ^ 62)%Z →
       ∀ es, retry_backoff out jit (λ _, false) "c" delay limit 63 ≠ BPanic es).
Proof.
  intros H. apply (H (flaky 5) (Some (λ _ _, 0%Z)) 1%Z 10%Z) with [ECall 1]; try done.
  intros j [= <-] i m. done.
Qed.
Print Assumptions C33_jitter_never_panics_refuted.

(** C34. For every rate, every clock that does not go back, every outcome sequence, any number of
    requests made one after the other and every time window [a,b]: the number of retries that got
    their token in the window is at most rate + rate * (b - a) / 10^9 (times are nanoseconds). *)
Theorem C34_rate_limit_budget :
  ∀ (V E : Type) (rate max : Z) (e : env) (out : nat → result V E) (cerr : E)
    (fuel k : nat) (now a b : Z) st es,
    (0 ≤ rate)%Z → (a ≤ b)%Z → monotone (clk e) → (now ≤ clk e 0)%Z →
    rl_requests rate max e out cerr fuel k (RL (new_limiter rate now) 0 0) = Some (st, es) →
    (one_token * Z.of_nat (retries_in a b es) ≤ rate * one_token + rate * (b - a))%Z.
Proof. intros. by eapply rl_budget. Qed.
Print Assumptions C34_rate_limit_budget.

(** Each request makes between 1 and max(1, Max) calls, stops at the first success and returns it;
    otherwise every call failed and the error is a call's error or the context's. *)
Theorem C34_rate_limited_request :
  ∀ (V E : Type) (rate max : Z) (e : env) (out : nat → result V E) (cerr : E) (fuel : nat)
    st st' es r,
    rl_request rate max e out cerr fuel st = Some (st', es, r) →
    1 ≤ length es ∧ (Z.of_nat (length es) ≤ Z.max 1 max)%Z ∧
    rl_calls st' = rl_calls st + length es ∧
    (∀ j, S j < length es → fails (out (rl_calls st + j))) ∧
    (succeeds r → r = out (rl_calls st + (length es - 1))) ∧
    (fails r → ∀ j, j < length es → fails (out (rl_calls st + j))) ∧
    (∀ x, rerr r = Some x → x = cerr ∨ ∃ j, j < length es ∧ rerr (out (rl_calls st + j)) = Some x).
Proof. intros *. apply rl_request_spec. Qed.
Print Assumptions C34_rate_limited_request.

Definition slow_clock : env := Env (λ n, 300000000 * Z.of_nat n)%Z (λ _, false).

Example C34_nonvacuous :
  option_map snd (rl_requests 2 4 slow_clock (flaky 99) "c" 20 2 (RL (new_limiter 2 0) 0 0)) =
    Some [RFirst 1; RRetry 1 0; RRetry 2 300000000; RRetry 3 600000000;
          RFirst 1; RRetry 1 1200000000; RRetry 2 1500000000; RRetry 3 2100000000].
Proof. by vm_compute. Qed.

(** The documentation calls the rate the maximum number of retries per second.  The bucket starts
    full, so a window of one second can see more (up to twice as many). *)
Theorem C34_rate_per_second_refuted :
  ¬ (∀ (out : nat → result nat string) e rate max k st es a,
       monotone (clk e) → (0 ≤ clk e 0)%Z → (0 < rate)%Z →
       rl_requests rate max e out "c" 20 k (RL (new_limiter rate 0) 0 0) = Some (st, es) →
       (Z.of_nat (retries_in a (a + one_token - 1) es) ≤ rate)%Z).
Proof.
  intros H.
  specialize (H (flaky 99) slow_clock 2%Z 4%Z 1).
  destruct (rl_requests 2 4 slow_clock (flaky 99) "c" 20 1 (RL (new_limiter 2 0) 0 0)) as [[st es]|] eqn:E;
    [|by vm_compute in E].
  specialize (H st es 0%Z). vm_compute in E. injection E as <- <-.
  assert (3 ≤ 2)%Z; [|done]. apply H; try done. intros n. simpl. lia.
Qed.
Print Assumptions C34_rate_per_second_refuted.

(** The documentation says that rate limit 0 means no limit.  It means no retry: the call blocks
    until its context is cancelled. *)
Theorem C34_zero_is_unlimited_refuted :
  ∀ (V E : Type) (out : nat → result V E) (cerr : E) (max now : Z) (e : env) (fuel : nat),
    (2 ≤ max)%Z → fails (out 0) → (∀ n, dead e n = false) →
    rl_request 0 max e out cerr fuel (RL (new_limiter 0 now) 0 0) = None.
Proof. intros. by apply rl_zero_blocks. Qed.
Print Assumptions C34_zero_is_unlimited_refuted.

(** The attempt number carried by the context is not unique within a request: the first try and the
    first retry both carry 1. *)
Theorem C34_attempt_numbers_refuted :
  ¬ (∀ (out : nat → result nat string) e rate max st es r,
       rl_request rate max e out "c" 20 (RL (new_limiter rate 0) 0 0) = Some (st, es, r) →
       NoDup (attempt_of <$> es)).
Proof.
  intros H.
  destruct (rl_request 2 4 slow_clock (flaky 99) "c" 20 (RL (new_limiter 2 0) 0 0)) as [[[st es] r]|] eqn:E;
    [|by vm_compute in E].
  specialize (H _ _ _ _ _ _ _ E). vm_compute in E. injection E as <- <- <-. simpl in H.
  apply list.NoDup_cons in H as [H _]. apply H. left.
Qed.
Print Assumptions C34_attempt_numbers_refuted.

(** The attempt numbers of the retries do increase, and stay between 1 and Max-1. *)
Lemma rl_loop_numbers {V E} rate e (out : nat → result V E) cerr fuel rem i st cur st' es r :
  rl_loop rate e out cerr fuel rem i st cur = Some (st', es, r) →
  Sorted.StronglySorted Z.lt (attempt_of <$> es) ∧ Forall (λ a, (i ≤ a < i + Z.of_nat rem)%Z) (attempt_of <$> es) ∧ Forall (λ x, ∃ a t, x = RRetry a t) es.
Proof.
  revert i st cur st' es r. induction rem as [|rem IH]; intros i st cur st' es r; cbn [rl_loop]; [intros [= <- <- <-]; split_and!; constructor|].
  destruct (wait_token rate e fuel (rl_lim st) (rl_polls st)) as [[l' n'] [t| |]]; [| |done].
  - destruct (rerr (out (rl_calls st))).
    + destruct (rl_loop _ _ _ _ _ rem _ _ _) as [[[st1 es1] r1]|] eqn:Hl; [|done]. intros [= <- <- <-].
      apply IH in Hl as (H1 & H2 & H3). split_and!.
      * cbn [fmap list_fmap]. constructor; [exact H1|]. eapply list.Forall_impl; [exact H2|]. simpl. intros a Ha. lia.
      * cbn [fmap list_fmap]. constructor; [simpl; lia|]. eapply list.Forall_impl; [exact H2|]. simpl. intros a Ha. lia.
      * constructor; [eauto|done].
    + intros [= <- <- <-]. split_and!; repeat constructor; simpl; try lia. eauto.
  - intros Hl. apply IH in Hl as (H1 & H2 & H3). split_and!; [done| |done]. eapply list.Forall_impl; [exact H2|]. simpl. intros a Ha. lia.
Qed.
Theorem C34_retry_numbers :
  ∀ (V E : Type) (rate max : Z) (e : env) (out : nat → result V E) (cerr : E) (fuel : nat) st st' es r,
    rl_request rate max e out cerr fuel st = Some (st', es, r) →
    ∃ rs, es = RFirst 1 :: rs ∧ Forall (λ x, ∃ a t, x = RRetry a t) rs ∧
      Sorted.StronglySorted Z.lt (attempt_of <$> rs) ∧ Forall (λ a, (1 ≤ a < max)%Z) (attempt_of <$> rs).
Proof.
  intros *. unfold rl_request. destruct (rerr (out (rl_calls st))).
  - destruct (rl_loop _ _ _ _ _ _ _ _ _) as [[[st1 es1] r1]|] eqn:Hl; [|done]. intros [= <- <- <-].
    apply rl_loop_numbers in Hl as (H1 & H2 & H3). exists es1. split_and!; [done..|].
    eapply list.Forall_impl; [exact H2|]. simpl. intros a Ha. lia.
  - intros [= <- <- <-]. exists []. split_and!; [done|constructor..].
Qed.
Print Assumptions C34_retry_numbers.

(** acquireToken takes no lock: two requests running concurrently on one client can both take the
    only token. *)
Theorem C34_concurrent_budget_refuted :
  ¬ (∀ rate now (sched : list nat) n,
       (0 ≤ rate)%Z →
       let s := fold_left (astep rate now) sched (new_limiter rate now, replicate n TIdle) in
       (Z.of_nat (acquired (snd s)) ≤ rate)%Z).
Proof. intros H. specialize (H 1%Z 0%Z [0; 1; 0; 1] 2 ltac:(lia)). by vm_compute in H. Qed.
Print Assumptions C34_concurrent_budget_refuted.

(** C35. For every history of requests on a fresh bucket: the bucket never exceeds its capacity and
    never drops below min(1, capacity); the retries made cost no more than the initial bucket plus
    what successful retries refilled. *)
Theorem C35_bucket_bounds_retries :
  ∀ (V E : Type) (c : bucket_cfg) (h : list (result V E * result V E)) tb l,
    (0 ≤ bc_cost c)%Z → (0 ≤ bc_refill c)%Z → tb_run c (bc_cap c) h = (tb, l) →
    (tb ≤ bc_cap c)%Z ∧ (Z.min (bc_one c) (bc_cap c) ≤ tb)%Z ∧
    (0 < count l.*1 → count l.*1 * bc_cost c ≤ bc_cap c - bc_one c + count l.*2 * bc_refill c)%Z.
Proof. intros *. apply tb_bounded. Qed.
Print Assumptions C35_bucket_bounds_retries.

(** Each request makes at most one retry and returns the result of its last call. *)
Theorem C35_request :
  ∀ (V E : Type) (c : bucket_cfg) tb (o1 o2 : result V E) tb' retried r,
    tb_request c tb o1 o2 = (tb', retried, r) →
    (retried = true ↔ fails o1 ∧ (bc_one c ≤ tb - bc_cost c)%Z) ∧
    r = (if retried then o2 else o1) ∧
    tb' = (if retried then
             if rerr o2 then (tb - bc_cost c)%Z else Z.min (tb - bc_cost c + bc_refill c) (bc_cap c)
           else tb).
Proof. intros *. apply tb_request_spec. Qed.
Print Assumptions C35_request.

Definition tb_example : bucket_cfg := BCfg 100 1000 100 5.
Definition down : result nat string := Result 0 (Some "down").
Definition up : result nat string := Result 1 None.

Example C35_nonvacuous :
  tb_run tb_example 1000 [(down, up); (up, up); (down, down); (down, up)] =
    (710, [(true, true); (false, false); (true, false); (true, true)])%Z.
Proof. by vm_compute. Qed.

(** Only a successful retry refills the bucket, by less than it cost when refill < cost.  So the
    number of retries in the whole life of a client is bounded by a constant, and once the bucket is
    drained no request is ever retried again, however many requests succeed. *)
Theorem C35_lifetime_bound :
  ∀ (V E : Type) (c : bucket_cfg) (h : list (result V E * result V E)) tb l,
    (0 ≤ bc_refill c ≤ bc_cost c)%Z → tb_run c (bc_cap c) h = (tb, l) →
    (0 < count l.*1 → count l.*1 * (bc_cost c - bc_refill c) ≤ bc_cap c - bc_one c)%Z.
Proof. intros *. apply tb_lifetime. Qed.
Print Assumptions C35_lifetime_bound.

Theorem C35_drained_forever :
  ∀ (V E : Type) (c : bucket_cfg) tb (h : list (result V E * result V E)),
    (tb - bc_cost c < bc_one c)%Z → tb_run c tb h = (tb, replicate (length h) (false, false)).
Proof. intros *. apply tb_exhausted. Qed.
Print Assumptions C35_drained_forever.
