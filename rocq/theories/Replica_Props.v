(** * C86: replicated services *)
From Verif Require Import Replica_Model Replica_Spec Replica_Proof.
From stdpp Require Import list.
Open Scope string_scope.
Open Scope list_scope.

(** C86. Replicas and balancers of all groups have names of their own. *)
Theorem C86_names :
  (∀ g i g' j, replica_name g i = replica_name g' j → g = g' ∧ i = j) ∧
  (∀ g g', lb_name g = lb_name g' → g = g') ∧
  (∀ g i g', replica_name g i ≠ lb_name g').
Proof.
  assert (underscore ∉ String.list_ascii_of_string "lb") as Hlb by (by apply (bool_decide_unpack _)).
  assert (∀ i : nat, underscore ∉ String.list_ascii_of_string (pretty i)) as Hp by (intros i; apply digits_no_underscore, digits_nat).
  split; [|split].
  - intros g i g' j [-> H]%suffix_inj; [|done..]. split; [done|]. by apply (inj pretty) in H.
  - intros g g' H. unfold lb_name in H. change "_lb" with ("_" +:+ "lb") in H. by apply suffix_inj in H as [-> _].
  - intros g i g' H. unfold lb_name in H. change "_lb" with ("_" +:+ "lb") in H. apply suffix_inj in H as [_ H]; [|done..].
    destruct (digits_nat i) as [Hd _]. rewrite H in Hd. done.
Qed.
Print Assumptions C86_names.
(** C86. There are as many as asked for, and the compiler panics exactly if that is none. *)
Theorem C86_panics_iff g n : length (replica_names g n) = n ∧ NoDup (replica_names g n) ∧ (generate g n = None ↔ n = 0).
Proof.
  split; [unfold replica_names; by rewrite fmap_length, seq_length|]. split.
  - unfold replica_names. apply NoDup_fmap_2_strong; [|apply NoDup_seq]. intros i j _ _ H. by apply C86_names in H as [_ ?].
  - unfold generate. by destruct n.
Qed.
Print Assumptions C86_panics_iff.

(** C86. If the balancer is deployed with RPC, then the j-th call passes all of the balancer's modifiers in order, then all
    modifiers of replica j mod n in order, and reaches the code of that replica. *)
Theorem C86_calls g n d ds ls j l :
  0 < n → distinct d → (∀ i, i < n → distinct (ds i)) → d_rpc d = true →
  consumer_calls g n d ds ls → ls !! j = Some l → l = modifiers d ++ way g n ds j.
Proof.
  intros Hn Hd Hds Hr H Hj. unfold consumer_calls in H. change (replica_client <$> replica_names g n) with (clients g n) in H.
  rewrite (new_state g n d ds) in H by done. pose proof (consumer_history g n d ds Hn Hd Hds 0 ls H j l Hj) as Hw. by rewrite Hr in Hw.
Qed.
Print Assumptions C86_calls.
(** C86. Such calls are always possible, however the balancer and the replicas are deployed. *)
Theorem C86_calls_possible g n d ds k :
  0 < n → distinct d → (∀ i, i < n → distinct (ds i)) → ∃ ls, length ls = k ∧ consumer_calls g n d ds ls.
Proof.
  intros Hn Hd Hds. unfold consumer_calls. change (replica_client <$> replica_names g n) with (clients g n).
  rewrite (new_state g n d ds) by done. by apply consumer_exists.
Qed.
Print Assumptions C86_calls_possible.
(** C86. So does every call, without the balancer's modifiers, if the balancer is in the consumer's process. *)
Theorem C86_local_calls g n d ds ls j l :
  0 < n → distinct d → (∀ i, i < n → distinct (ds i)) → d_rpc d = false →
  consumer_calls g n d ds ls → ls !! j = Some l → l = way g n ds j.
Proof.
  intros Hn Hd Hds Hr H Hj. unfold consumer_calls in H. change (replica_client <$> replica_names g n) with (clients g n) in H.
  rewrite (new_state g n d ds) in H by done. pose proof (consumer_history g n d ds Hn Hd Hds 0 ls H j l Hj) as Hw. by rewrite Hr in Hw.
Qed.
Print Assumptions C86_local_calls.
(** What should be: the balancer's modifiers, too.  That is never so if there are any. *)
Theorem C86_local_modifiers_refuted g n d ds :
  0 < n → distinct d → (∀ i, i < n → distinct (ds i)) → d_rpc d = false → modifiers d ≠ [] →
  ∃ ls, length ls = 1 ∧ consumer_calls g n d ds ls ∧ ∀ j l, ls !! j = Some l → l ≠ modifiers d ++ way g n ds j.
Proof.
  intros Hn Hd Hds Hr Hm. destruct (C86_calls_possible g n d ds 1) as (ls & Hl & H); [done..|]. exists ls. split; [done|]. split; [done|].
  intros j l Hj E. rewrite (C86_local_calls g n d ds ls j l) in E by done. apply (f_equal length) in E. rewrite app_length in E.
  destruct (modifiers d); [done|]. simpl in E. lia.
Qed.
Print Assumptions C86_local_modifiers_refuted.

Definition ex_lb (rpc : bool) : deployed := Deployed ["client.retrier"; "client.timeout"] ["server.hc"] rpc.
Definition ex_replica (i : nat) : deployed :=
  match i with 0 => Deployed ["client.cb"] [] true | 1 => Deployed ["client.cb"; "client.ot"] ["server.ot"; "server.latency"] true | _ => Deployed [] ["server.hc"] false end.
Example C86_nonvacuous : ∃ ls, consumer_calls "pay" 3 (ex_lb true) ex_replica ls ∧ ls =
  [ [Through "client.retrier"; Through "client.timeout"; Through "server.hc"; Through "client.cb"; Reached "pay_0"];
    [Through "client.retrier"; Through "client.timeout"; Through "server.hc"; Through "client.cb"; Through "client.ot";
     Through "server.latency"; Through "server.ot"; Reached "pay_1"];
    [Through "client.retrier"; Through "client.timeout"; Through "server.hc"; Through "server.hc"; Reached "pay_2"];
    [Through "client.retrier"; Through "client.timeout"; Through "server.hc"; Through "client.cb"; Reached "pay_0"] ].
Proof.
  assert (distinct (ex_lb true)) as Hd by (by apply (bool_decide_unpack _)).
  assert (∀ i, i < 3 → distinct (ex_replica i)) as Hds.
  { intros i Hi. destruct i as [|[|[|i]]]; [by apply (bool_decide_unpack _)..|lia]. }
  destruct (C86_calls_possible "pay" 3 (ex_lb true) ex_replica 4) as (ls & Hl & H); [lia|done..|].
  exists ls. split; [done|]. apply list_eq. intros j. destruct (ls !! j) as [l|] eqn:E.
  - rewrite (C86_calls "pay" 3 (ex_lb true) ex_replica ls j l) by (done || lia).
    pose proof (lookup_lt_Some _ _ _ E) as Hj. rewrite Hl in Hj. do 4 (destruct j as [|j]; [done|]). lia.
  - apply lookup_ge_None in E. symmetry. apply lookup_ge_None. simpl. lia.
Qed.
