(** * Properties of timeouts (C37) and of fault injection (C46) *)
From Coq Require Import Lia.
From stdpp Require Import strings.
From Verif Require Import Timeout_Model Timeout_Spec Timeout_Proof.

(** C37. For every result of the wrapped call and every schedule of the call, the timer and the
    caller.  (a) If the caller returns because the call completed, it returns exactly its result. *)
Theorem C37_completed_result :
  ∀ (V E : Type) (r : result V E) (tmo : E) (zero : V) (sched : list tmove) v e,
    returned (t_run r tmo (t_init zero) sched) false v e → Result v e = r.
Proof. intros *. apply t_complete. Qed.
Print Assumptions C37_completed_result.

(** (b) Provided the caller's two results are read together, it returns either the call's complete
    result or the timeout error. *)
Theorem C37_result_or_timeout_atomic_reads :
  ∀ (V E : Type) (r : result V E) (tmo : E) (zero : V) (sched : list tmove) b v e,
    atomic_reads r tmo (t_init zero) sched →
    returned (t_run r tmo (t_init zero) sched) b v e → e = Some tmo ∨ Result v e = r.
Proof. intros *. apply t_atomic. Qed.
Print Assumptions C37_result_or_timeout_atomic_reads.

(** (c) The timeout case is taken only after the deadline has passed; without any assumption the
    error is the timeout error or the call's, and the value is the call's or the zero value. *)
Theorem C37_timeout_only_after_deadline :
  ∀ (V E : Type) (r : result V E) (tmo : E) (zero : V) (sched : list tmove) v e,
    returned (t_run r tmo (t_init zero) sched) true v e →
    ts_fired (t_run r tmo (t_init zero) sched) = true ∧ (e = Some tmo ∨ e = rerr r) ∧
    (v = zero ∨ v = rval r).
Proof. intros *. apply t_timedout. Qed.
Print Assumptions C37_timeout_only_after_deadline.

(** (d) Once the deadline has passed the caller returns within four of its own steps, even if the
    wrapped call never moves again. *)
Theorem C37_returns_after_deadline :
  ∀ (V E : Type) (r : result V E) (tmo : E) (s : tstate V E),
    ts_fired s = true → ∃ b v e, returned (t_run r tmo s (replicate 4 TMain)) b v e.
Proof. intros *. apply t_bounded. Qed.
Print Assumptions C37_returns_after_deadline.

(** (e) If the call has not produced anything when the caller returns, the caller gets the timeout error and the zero
    value. *)
Theorem C37_timeout_reported :
  ∀ (V E : Type) (r : result V E) (tmo : E) (zero : V) (sched : list tmove) b v e,
    returned (t_run r tmo (t_init zero) sched) b v e → ts_g (t_run r tmo (t_init zero) sched) = GRun →
    b = true ∧ v = zero ∧ e = Some tmo.
Proof.
  intros V E r tmo zero sched b v e Hr Hg.
  set (I := λ s : tstate V E, ts_g s = GRun → ts_val s = zero ∧
    match ts_m s with MSelect | MFired => True | MReading b => b = true ∧ ts_err s = Some tmo
    | MRead b v => b = true ∧ v = zero ∧ ts_err s = Some tmo | MRet b v e => b = true ∧ v = zero ∧ e = Some tmo end).
  assert (∀ s, I s → I (t_run r tmo s sched)) as HI.
  { clear Hr Hg. induction sched as [|mv sched IH]; intros s Hs; [done|]. apply (IH (t_step r tmo s mv)).
    unfold I in *. intros Hg. destruct mv; simpl in *.
    - by apply Hs.
    - destruct (ts_g s) eqn:Eg; simpl in *; congruence.
    - destruct (ts_m s) eqn:Em; simpl in *.
      + destruct (ts_fired s); simpl in *; [split; [by apply Hs|done]|]. split; [by apply Hs|]. by rewrite Em.
      + split; [by apply Hs|done].
      + destruct (Hs Hg) as (-> & -> & ->). done.
      + destruct (Hs Hg) as (? & -> & -> & ->). done.
      + split; [by apply Hs|]. rewrite Em. by apply Hs.
    - destruct (ts_g s) eqn:Eg; simpl in *; try congruence; [by apply Hs|]. destruct (ts_m s); simpl in *; congruence. }
  assert (I (t_init zero)) as H0 by done. apply HI in H0. destruct (H0 Hg) as [_ H]. unfold returned in Hr. by rewrite Hr in H.
Qed.
Print Assumptions C37_timeout_reported.

Example C37_nonvacuous :
  let r := Result 42 (None : option string) in
  returned (t_run r "timeout" (t_init 0) [TGo; TGo; TSync; TFire; TMain; TMain]) false 42 None ∧
  returned (t_run r "timeout" (t_init 0) [TGo; TFire; TMain; TMain; TMain; TMain; TGo]) true 42 (Some "timeout") ∧
  atomic_reads r "timeout" (t_init 0) [TGo; TFire; TMain; TMain; TMain; TMain; TGo].
Proof. vm_compute. tauto. Qed.

(** Without that proviso the claim fails: the goroutine still writes the shared results after the
    timeout, and the caller can return a zero value with no error although the call returned 42. *)
Theorem C37_result_or_timeout_refuted :
  ¬ (∀ (r : result nat string) tmo zero sched b v e,
       returned (t_run r tmo (t_init zero) sched) b v e → e = Some tmo ∨ Result v e = r).
Proof.
  intros H.
  by destruct (H (Result 42 None) "timeout" 0 [TFire; TMain; TMain; TMain; TGo; TGo; TMain] true 0 None eq_refl).
Qed.
Print Assumptions C37_result_or_timeout_refuted.

(** Every call that times out leaks its goroutine: it blocks forever on the unbuffered channel. *)
Theorem C37_no_goroutine_leak_refuted :
  ∀ (V E : Type) (r : result V E) (tmo : E) (zero : V) (sched : list tmove) v e (later : list tmove),
    returned (t_run r tmo (t_init zero) sched) true v e →
    ts_g (t_run r tmo (t_init zero) (sched ++ later)) ≠ GDone.
Proof. intros *. apply t_leak. Qed.
Print Assumptions C37_no_goroutine_leak_refuted.

(** C46. For every draw, an injected delay lies in [0, max] milliseconds (for every non-negative max
    whose nanoseconds fit int64), and the service is then called and its result returned. *)
Theorem C46_delay_in_range :
  ∀ (V E : Type) (max_delay : Z) (rnd : Z → Z) (service : result V E),
    (∀ n, 0 < n → 0 ≤ rnd n < n)%Z → (0 ≤ max_delay ≤ 9223372036854)%Z →
    ∃ s, delay_inject max_delay rnd service = FRet s true service ∧ (0 ≤ s ≤ max_delay * 1000000)%Z.
Proof. intros *. apply delay_ok. Qed.
Print Assumptions C46_delay_in_range.

(** The delay is a whole number of milliseconds, and every one of 0 to max can be drawn. *)
Theorem C46_delay_exact :
  ∀ (V E : Type) (max_delay : Z) (service : result V E),
    (0 ≤ max_delay ≤ 9223372036854)%Z →
    (∀ rnd : Z → Z, (∀ n, 0 < n → 0 ≤ rnd n < n)%Z → ∃ ms, (0 ≤ ms ≤ max_delay)%Z ∧ delay_inject max_delay rnd service = FRet (ms * 1000000) true service) ∧
    (∀ ms, (0 ≤ ms ≤ max_delay)%Z → ∃ rnd : Z → Z, (∀ n, 0 < n → 0 ≤ rnd n < n)%Z ∧ delay_inject max_delay rnd service = FRet (ms * 1000000) true service).
Proof.
  intros V E m service Hm. assert (∀ z, (- 2 ^ 63 ≤ z < 2 ^ 63)%Z → wrap64 z = z) as Hw.
  { intros z Hz. unfold wrap64. rewrite Z.mod_small; lia. }
  split.
  - intros rnd Hrnd. unfold delay_inject, int63n. rewrite Hw by lia. destruct (Z.leb_spec (m + 1) 0); [lia|].
    pose proof (Hrnd (m + 1)%Z ltac:(lia)). exists (rnd (m + 1)%Z). rewrite Hw by lia. split; [lia|done].
  - intros ms Hms. exists (λ n, Z.min ms (n - 1)). split; [intros n Hn; lia|]. unfold delay_inject, int63n. rewrite (Hw (m + 1)%Z) by lia.
    destruct (Z.leb_spec (m + 1) 0); [lia|]. rewrite Z.min_l by lia. by rewrite Hw by lia.
Qed.
Print Assumptions C46_delay_exact.

(** The latency injector always calls the service and returns its result, after exactly the latency. *)
Theorem C46_latency_exact :
  ∀ (V E : Type) (latency : Z) (service : result V E) sleep called r,
    latency_inject latency service = FRet sleep called r → sleep = latency ∧ called = true ∧ r = service.
Proof. intros *. by intros [= -> -> ->]. Qed.
Print Assumptions C46_latency_exact.

(** A request fails exactly when the draw is below the probability (in percent), without reaching the
    service; so never for p <= 0, always for p >= 100, and for exactly p of the 100 draws between. *)
Theorem C46_failure_probability :
  ∀ (V E : Type) (p d : Z) (zero : V) (ferr : E) (service : result V E),
    (0 ≤ d < 100)%Z →
    prob_inject p d zero ferr service =
      if bool_decide (d < p)%Z then FRet 0 false (Result zero (Some ferr)) else FRet 0 true service.
Proof. intros *. apply prob_ok. Qed.
Print Assumptions C46_failure_probability.

Theorem C46_failure_extremes :
  ∀ (V E : Type) (p d : Z) (zero : V) (ferr : E) (service : result V E),
    (0 ≤ d < 100)%Z →
    (p ≤ 0 → prob_inject p d zero ferr service = FRet 0 true service)%Z ∧
    (100 ≤ p → prob_inject p d zero ferr service = FRet 0 false (Result zero (Some ferr)))%Z.
Proof.
  intros. rewrite prob_ok by done. split; intros; case_bool_decide; done || lia.
Qed.
Print Assumptions C46_failure_extremes.

Theorem C46_failure_count :
  ∀ (V E : Type) (p : nat) (zero : V) (ferr : E) (service : result V E),
    p ≤ 100 →
    length (List.filter (λ d, match prob_inject (Z.of_nat p) (Z.of_nat d) zero ferr service with
                              | FRet _ called _ => negb called | FPanic => false end) (seq 0 100)) = p.
Proof.
  intros V E p zero ferr service Hp. etrans; [|exact (prob_count p Hp)]. f_equal. apply filter_ext.
  intros d. unfold prob_inject. destruct (Z.ltb_spec (Z.of_nat d) (Z.of_nat p)); case_bool_decide; done || lia.
Qed.
Print Assumptions C46_failure_count.

Example C46_nonvacuous :
  delay_inject 10 (λ n, n - 1)%Z (Result 5 (None : option string)) = FRet 10000000 true (Result 5 None) ∧
  prob_inject 30 29 0 "fault" (Result 5 None) = FRet 0 false (Result 0 (Some "fault")) ∧
  prob_inject 30 30 0 "fault" (Result 5 None) = FRet 0 true (Result 5 None).
Proof. by vm_compute. Qed.

(** A negative maximum makes every request panic. *)
Theorem C46_delay_never_panics_refuted :
  ¬ (∀ (max_delay : Z) (rnd : Z → Z) (service : result nat string),
       (-2 ^ 63 ≤ max_delay < 2 ^ 63)%Z → delay_inject max_delay rnd service ≠ FPanic).
Proof. intros H. by apply (H (-1)%Z (λ _, 0%Z) (Result 0 None)). Qed.
Print Assumptions C46_delay_never_panics_refuted.
