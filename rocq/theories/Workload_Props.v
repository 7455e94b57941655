(** * Properties of the workload generator (C29, C30) *)
From Verif Require Import Workload_Model Workload_Spec Workload_Proof.

(** C29. For every list of APIs with non-negative proportions (whose sum does not overflow) accepted by
    IsValid, and every order in which sort.Slice may leave them: each of the 100 dispatch slots selects
    the function of one of the APIs, and each function owns exactly as many slots as configured. *)
Theorem C29_slots_match_proportions :
  ∀ apis sorted,
    Forall (λ a, 0 ≤ a_prop a)%Z apis → (total apis < 2 ^ 63)%Z → is_valid apis = true → sorted ≡ₚ apis →
    (∀ n, (0 ≤ n < 100)%Z → ∃ a, a ∈ apis ∧ dispatch (init_prop_map sorted) n = Some (a_fn a)) ∧
    (∀ f, slots (init_prop_map sorted) f = configured apis f).
Proof. exact slots_exact. Qed.
Print Assumptions C29_slots_match_proportions.

(** IsValid accepts exactly the proportions that sum to 100 (when non-negative, without overflow). *)
Theorem C29_valid_means_100 :
  ∀ apis, Forall (λ a, 0 ≤ a_prop a)%Z apis → (total apis < 2 ^ 63)%Z → is_valid apis = true → total apis = 100%Z.
Proof. exact is_valid_total. Qed.
Print Assumptions C29_valid_means_100.

Example C29_nonvacuous :
  let apis := [Api 7 20; Api 8 50; Api 9 0; Api 7 30] in
  is_valid apis = true ∧ configured apis 7 = 50%Z ∧
  slots (init_prop_map [Api 8 50; Api 7 30; Api 7 20; Api 9 0]) 7 = 50%Z.
Proof. by vm_compute. Qed.

(** IsValid also accepts negative proportions; the slots then differ from the configuration. *)
Theorem C29_valid_suffices_refuted :
  ¬ (∀ apis f, is_valid apis = true → slots (init_prop_map apis) f = configured apis f).
Proof. intros H. specialize (H [Api 1 150; Api 2 (-50)] 1 eq_refl). by vm_compute in H. Qed.
Print Assumptions C29_valid_suffices_refuted.

(** C30. For every channel capacity, earlier statistics, number of requests and schedule: when
    RunOpenLoop has returned, every request issued has finished, and the statistics recorded are the
    earlier ones together with exactly the one each request produced. *)
Theorem C30_every_request_accounted :
  ∀ cap s0 ms, let e := erun (start_engine cap s0) ms in
    e_main e = MReturned →
    Forall finished (e_reqs e) ∧ e_stats e ≡ₚ s0 ++ flat_map produced (e_reqs e) ∧
    length (e_stats e) = length s0 + length (e_reqs e).
Proof. exact all_accounted. Qed.
Print Assumptions C30_every_request_accounted.

(** No request ever sends on the closed channel. *)
Theorem C30_no_panic : ∀ cap s0 ms, e_panic (erun (start_engine cap s0) ms) = false.
Proof. exact no_panic. Qed.
Print Assumptions C30_no_panic.

(** Nothing deadlocks: until RunOpenLoop returns, some participant other than the ticker can move, and
    from every state RunOpenLoop can return without issuing a further request. *)
Theorem C30_no_deadlock :
  ∀ cap s0 ms, let e := erun (start_engine cap s0) ms in
    (e_main e ≠ MReturned → ∃ m, m ≠ ETick ∧ estep e m ≠ e) ∧
    (∃ more, ETick ∉ more ∧ e_main (erun e more) = MReturned).
Proof. intros cap s0 ms e. split; [eapply progress, einv_run|apply can_return]. Qed.
Print Assumptions C30_no_deadlock.

(** A run with unbuffered and one with buffered statistics, two requests each. *)
Definition engine_demo : list emove :=
  [ETick; ETick; EReturn 1 11; ESend 1; EMain; EReturn 0 10; EMain; EDone 1; ESend 0; ETick; EMain; ECollect; EDone 0; EMain;
   EMain; ECollect; ECollect; EMain].
Example C30_nonvacuous :
  let e0 := erun (start_engine 0 [5]) engine_demo in let e1 := erun (start_engine 3 [5]) engine_demo in
  e_main e0 = MReturned ∧ e_stats e0 = [5; 11; 10] ∧ length (e_reqs e0) = 2 ∧
  e_main e1 = MReturned ∧ e_stats e1 = [5; 11; 10] ∧ length (e_reqs e1) = 2.
Proof. by vm_compute. Qed.
