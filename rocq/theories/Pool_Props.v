(** * Properties of the client pool (C27, C28) *)
From Verif Require Import Pool_Model Pool_Spec Pool_Proof.

(** C27. For every capacity, number of goroutines and schedule of Pop and Push calls (builds failing or
    not, contexts cancelled or not): the clients that exist together with those being built never exceed
    the capacity. *)
Theorem C27_pool_limit :
  ∀ cap n ms, let p := prun (new_pool cap n) ms in length (all_clients p) + building p ≤ cap.
Proof. exact pool_limit. Qed.
Print Assumptions C27_pool_limit.

(** No client is in two places: twice in the pool, with two goroutines, or in the pool and with one. *)
Theorem C27_no_client_shared :
  ∀ cap n ms, NoDup (all_clients (prun (new_pool cap n) ms)).
Proof. exact pool_nodup. Qed.
Print Assumptions C27_no_client_shared.

(** Push never blocks: its send finds room whenever it is scheduled. *)
Theorem C27_push_never_blocks :
  ∀ cap n ms t c, let p := prun (new_pool cap n) ms in
    p_threads p !! t = Some (PPushing c) →
    p_threads (pstep p (MRun t)) !! t = Some PIdle ∧ p_chan (pstep p (MRun t)) = p_chan p ++ [c].
Proof. exact pool_push_room. Qed.
Print Assumptions C27_push_never_blocks.

(** When no call is in progress the published statistics are exact. *)
Theorem C27_statistics_exact :
  ∀ cap n ms, let p := prun (new_pool cap n) ms in
    quiescent p → p_avail p = Z.of_nat (length (p_chan p)) ∧ p_waiting p = 0%Z ∧ p_size p = length (all_clients p).
Proof. exact pool_counters. Qed.
Print Assumptions C27_statistics_exact.

(** Two goroutines race for a pool of two, a third waits for a returned client. *)
Definition pool_demo : list pmove :=
  [MPop 0; MPop 1; MRun 0; MRun 1; MRun 0; MRun 1; MRun 0; MRun 1; MRun 1; MRun 1; MBuild 1 true; MBuild 0 true;
   MPop 2; MRun 2; MRun 2; MRun 2].
Example C27_nonvacuous :
  let p := prun (new_pool 2 3) pool_demo in
  p_threads p = [PHold 1; PHold 0; PWaiting] ∧ p_size p = 2 ∧ p_waiting p = 1%Z ∧
  p_threads (prun p [MPush 1]) !! 1 = Some (PPushing 0) ∧
  p_threads (prun p [MPush 1; MRun 1; MRun 2; MRun 2; MRun 2]) = [PHold 1; PIdle; PHold 0] ∧
  (let q := prun p [MPush 1; MRun 1; MRun 2; MRun 2; MRun 2; MPush 0; MRun 0] in
   quiescent q ∧ p_avail q = 1%Z ∧ p_chan q = [1]).
Proof.
  vm_compute. split_and!; try done. intros ph Hp.
  repeat (apply elem_of_cons in Hp as [->|Hp]; [done|]). by apply elem_of_nil in Hp.
Qed.

(** C28. As long as no build fails, a Pop waits only while the pool is at its capacity, and from every
    such state there is a continuation (owners finish and return their client) that serves it. *)
Theorem C28_waiter_can_be_served :
  ∀ cap n ms t, let p := prun (new_pool cap n) ms in
    0 < cap → (∀ m, m ∈ ms → build_failure m = false) → p_threads p !! t = Some PWaiting →
    p_size p = cap ∧
    ∃ more c, (∀ m, m ∈ more → build_failure m = false) ∧ p_threads (prun p more) !! t = Some (PHold c).
Proof. exact waiter_served. Qed.
Print Assumptions C28_waiter_can_be_served.

(** With failing builds this still holds while some client exists or is being built. *)
Theorem C28_waiter_can_be_served_despite_failures :
  ∀ cap n ms t, let p := prun (new_pool cap n) ms in
    p_threads p !! t = Some PWaiting → 0 < p_size p →
    ∃ more c, (∀ m, m ∈ more → build_failure m = false) ∧ p_threads (prun p more) !! t = Some (PHold c).
Proof. exact waiter_served_size. Qed.
Print Assumptions C28_waiter_can_be_served_despite_failures.

(** Once the channel holds a client, a waiter needs only its own steps. *)
Theorem C28_waiter_takes_returned_client :
  ∀ p t c l, p_threads p !! t = Some PWaiting → p_chan p = c :: l →
    p_threads (prun p [MRun t; MRun t; MRun t]) !! t = Some (PHold c).
Proof. exact waiter_takes. Qed.
Print Assumptions C28_waiter_takes_returned_client.

Example C28_nonvacuous :
  let p := prun (new_pool 2 3) pool_demo in
  p_threads p !! 2 = Some PWaiting ∧ forallb (λ m, negb (build_failure m)) pool_demo = true ∧
  p_chan (prun p [MPush 1; MRun 1]) = [0].
Proof. vm_compute. done. Qed.

(** Not so in general: a Pop that waits while the only client is being built is stranded when that build
    fails.  The pool is empty, its size below the capacity, everybody else outside the pool, and the
    waiter can make no step. *)
Theorem C28_no_waiter_below_capacity_refuted :
  ¬ (∀ cap n ms t, let p := prun (new_pool cap n) ms in
       p_threads p !! t = Some PWaiting → p_size p < cap → (∃ s ph, s ≠ t ∧ p_threads p !! s = Some ph ∧ ph ≠ PIdle) ∨
         p_threads (pstep p (MRun t)) !! t ≠ Some PWaiting).
Proof.
  intros H.
  specialize (H 1 2 [MPop 0; MRun 0; MRun 0; MRun 0; MPop 1; MRun 1; MRun 1; MRun 1; MBuild 0 false] 1).
  vm_compute in H. destruct H as [(s&ph&Hs&Hp&Hn)|H]; [done|lia| |done].
  destruct s as [|[|s]]; simpl in *; try done. by injection Hp as <-.
Qed.
Print Assumptions C28_no_waiter_below_capacity_refuted.
