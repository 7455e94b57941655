(** * Properties of run-time namespaces (C15, C16) *)
From Verif Require Import RunNS_Model RunNS_Spec RunNS_Proof.

(** C15. For every set of definitions, any build functions, and any interleaving of threads calling Get in
    which no build function is called while an earlier call of it is in progress: a node is built
    successfully at most once; ... *)
Theorem C15_built_at_most_once :
  ∀ ls s os i1 i2 j name v1 r1 v2 r2, execution ls s os → exclusive ls →
    os !! i1 = Some (OBuilt j name v1 r1) → os !! i2 = Some (OBuilt j name v2 r2) → i1 = i2.
Proof. exact built_once. Qed.
Print Assumptions C15_built_at_most_once.

(** ... once built, its build function is not called again; ... *)
Theorem C15_not_rebuilt :
  ∀ ls s os os1 os2 j name v r, execution ls s os → exclusive ls → os = os1 ++ OBuilt j name v r :: os2 →
    ∀ o, o ∈ os2 → ¬ is_built j name o ∧ o ≠ OStart j name ∧ o ≠ OFailed j name.
Proof. exact nothing_after_built. Qed.
Print Assumptions C15_not_rebuilt.

(** ... every Get hands out the same instance, ... *)
Theorem C15_same_instance :
  ∀ ls s os j name v1 v2 o1 o2, execution ls s os → exclusive ls → o1 ∈ os → o2 ∈ os →
    hands_out j name v1 o1 → hands_out j name v2 o2 → v1 = v2.
Proof. exact same_instance. Qed.
Print Assumptions C15_same_instance.

(** ... and none before it was built; ... *)
Theorem C15_handed_out_after_built :
  ∀ ls s os os1 os2 j name v, execution ls s os → exclusive ls → os = os1 ++ OHit j name v :: os2 →
    ∃ r, OBuilt j name v r ∈ os1.
Proof. exact hit_after_built. Qed.
Print Assumptions C15_handed_out_after_built.

(** ... exactly one goroutine runs it if it is runnable and was built, and none otherwise; ... *)
Theorem C15_started_exactly_once :
  ∀ ls s os j name, execution ls s os → exclusive ls →
    length (tasks_of s j name) ≤ 1 ∧ (length (tasks_of s j name) = 1 ↔ ∃ v, OBuilt j name v true ∈ os).
Proof. exact started_once. Qed.
Print Assumptions C15_started_exactly_once.

(** ... and a failure is not remembered: while a defined node has not been built, Get calls its build
    function. *)
Theorem C15_failure_not_cached :
  ∀ ls s os j name t s' o, execution ls s os → exclusive ls →
    (∀ v r, OBuilt j name v r ∉ os) → (∃ x, nss s !! j = Some x ∧ name ∈ defs x) →
    step s (LGet t j name) = Some (s', o) → o = OStart j name.
Proof. exact failure_not_cached. Qed.
Print Assumptions C15_failure_not_cached.

(** A Get is answered by the nearest enclosing namespace that defines the name, and fails if there is
    none (whatever the threads do). *)
Theorem C15_nearest_definition_answers :
  ∀ ls s os t n name, execution ls s os → n < length (nss s) →
    ∃ s' o, step s (LGet t n name) = Some (s', o) ∧
      (∀ j, (o = OStart j name ∨ ∃ v, o = OHit j name v) ↔ nearest (nss s) name n j) ∧
      (o = OUnknown name ↔ ∀ j, ¬ nearest (nss s) name n j).
Proof. exact get_answered. Qed.
Print Assumptions C15_nearest_definition_answers.

Definition example : list label :=
  [LNew None {["a"; "b"]}; LNew (Some 0) {["c"]};
   LGet 0 1 "c"; LGet 0 1 "a"; LReturn 0 None; LGet 0 1 "a"; LGet 1 0 "b"; LReturn 0 (Some (7, true)); LReturn 1 (Some (8, true));
   LReturn 0 (Some (9, true)); LGet 1 1 "c"; LGet 1 0 "a"; LGet 1 0 "c"].
Example C15_nonvacuous :
  exclusive example ∧
  (∃ s, execution example s
    [OOther; OOther; OStart 1 "c"; OStart 0 "a"; OFailed 0 "a"; OStart 0 "a"; OStart 0 "b"; OBuilt 0 "a" 7 true; OBuilt 0 "b" 8 true;
     OBuilt 1 "c" 9 true; OHit 1 "c" 9; OHit 0 "a" 7; OUnknown "c"] ∧ length (tasks_of s 1 "c") = 1).
Proof. split; [apply exclusiveb_sound; by vm_compute|]. eexists. split; [by vm_compute|by vm_compute]. Qed.

(** Without the guard it is false: a build function that gets its own name, or two threads racing for one
    name, build and start the node twice, and hand out two instances. *)
Theorem C15_reentrant_build_refuted :
  ∃ ls s os v1 v2, execution ls s os ∧ (∀ t n k, LGet t n k ∈ ls → t = 0) ∧
    OBuilt 0 "a" v1 true ∈ os ∧ OBuilt 0 "a" v2 true ∈ os ∧ v1 ≠ v2 ∧ length (tasks_of s 0 "a") = 2.
Proof.
  exists [LNew None {["a"]}; LGet 0 0 "a"; LGet 0 0 "a"; LReturn 0 (Some (1, true)); LReturn 0 (Some (2, true))].
  do 2 eexists. exists 1, 2. split; [by vm_compute|]. split; [set_solver|]. split; [set_solver|]. split; [set_solver|]. split; [done|by vm_compute].
Qed.
Print Assumptions C15_reentrant_build_refuted.
Theorem C15_concurrent_build_refuted :
  ∃ ls s os v1 v2, execution ls s os ∧
    OBuilt 0 "a" v1 true ∈ os ∧ OBuilt 0 "a" v2 true ∈ os ∧ v1 ≠ v2 ∧ length (tasks_of s 0 "a") = 2.
Proof.
  exists [LNew None {["a"]}; LGet 0 0 "a"; LGet 1 0 "a"; LReturn 0 (Some (1, true)); LReturn 1 (Some (2, true))].
  do 2 eexists. exists 1, 2. split; [by vm_compute|]. split; [set_solver|]. split; [set_solver|]. split; [done|by vm_compute].
Qed.
Print Assumptions C15_concurrent_build_refuted.

(** C16. For every interleaving, with no guard: Await on a namespace returns exactly when every node
    started in it has stopped running, and every node started in a direct child has stopped and said so to
    the parent; the counter is never negative (which would crash the process). *)
Theorem C16_await :
  ∀ ls s os n x, execution ls s os → nss s !! n = Some x →
    (0 ≤ wg x)%Z ∧
    (await_returns s n = true ↔
     (∀ t, t ∈ tasks s → t_ns t = n → t_phase t ≠ Running) ∧
     (∀ t, t ∈ tasks s → parent_of (nss s) (t_ns t) = Some n → t_phase t = Finished)).
Proof. exact await_spec. Qed.
Print Assumptions C16_await.

(** The context of a namespace ends exactly when it or an enclosing namespace was shut down, or had a node
    that failed while running. *)
Theorem C16_context_ends :
  ∀ ls s os n, execution ls s os → n < length (nss s) →
    ctx_done (S n) (nss s) n = true ↔ ∃ a, encloses (nss s) a n ∧ cause ls s a.
Proof. exact ctx_spec. Qed.
Print Assumptions C16_context_ends.

Example C16_nonvacuous :
  let ls := [LNew None {["a"]}; LNew (Some 0) {["c"]}; LGet 0 1 "c"; LReturn 0 (Some (1, true)); LGet 0 1 "a"; LReturn 0 (Some (2, true))] in
  (∃ s os, execution ls s os ∧ await_returns s 0 = false ∧ await_returns s 1 = false) ∧
  (∃ s os, execution (ls ++ [LExit 0 true; LExit 1 false]) s os ∧ await_returns s 0 = false ∧ await_returns s 1 = true ∧
           ctx_done 2 (nss s) 1 = true ∧ ctx_done 1 (nss s) 0 = false) ∧
  (∃ s os, execution (ls ++ [LExit 0 false; LExit 1 false; LParentDone 0; LShutdown 0]) s os ∧ await_returns s 0 = true ∧ ctx_done 2 (nss s) 1 = true).
Proof.
  intros ls. split; [|split]; do 2 eexists; (split; [by vm_compute|]); by repeat (split; [by vm_compute|]); vm_compute.
Qed.

(** Two levels down it is false: a grandparent's Await does not wait for the nodes of its grandchildren. *)
Theorem C16_grandchildren_refuted :
  ∃ ls s os t, execution ls s os ∧ t ∈ tasks s ∧ t_phase t = Running ∧ encloses (nss s) 0 (t_ns t) ∧ await_returns s 0 = true.
Proof.
  exists [LNew None ∅; LNew (Some 0) ∅; LNew (Some 1) {["a"]}; LGet 0 2 "a"; LReturn 0 (Some (1, true))].
  do 2 eexists. exists (Task 2 "a" Running). split; [by vm_compute|]. split; [left|]. split; [done|]. split; [|by vm_compute].
  apply (enc_step _ _ 2 1); [by vm_compute|]. apply (enc_step _ _ 1 0); [by vm_compute|]. constructor.
Qed.
Print Assumptions C16_grandchildren_refuted.
