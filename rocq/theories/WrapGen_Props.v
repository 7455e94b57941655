(** * Properties of generated files (C41) and of generated wrapper classes (C53) *)
From Verif Require Import WrapGen_Proof.
From Coq Require Import Lia.

(** C41. After generating a file, it has the rendered text exactly if it had no longer text before. *)
Theorem C41_one_write : ∀ fs p code fs', template_to_file fs p true (Some code) = (fs', true) →
  (fs' !! p = Some code ↔ length (default [] (fs !! p)) ≤ length code) ∧
  (∀ q, q ≠ p → fs' !! q = fs !! q).
Proof.
  intros fs p code fs' [= <-]. rewrite lookup_insert. split; [|intros q N; by rewrite lookup_insert_ne].
  unfold overwrite. split.
  - intros [= H]. apply (f_equal length) in H. rewrite app_length, drop_length in H. lia.
  - intros H. rewrite drop_ge by done. by rewrite app_nil_r.
Qed.
Print Assumptions C41_one_write.

(** In any sequence of generations into an output directory: the file generated last has its rendered text exactly if no text
    rendered into it before, and nothing in it at the start, was longer. *)
Theorem C41_last_write : ∀ fs ws p code,
  template_runs fs (ws ++ [(p, true, Some code)]) !! p = Some code ↔
  length (default [] (fs !! p)) ≤ length code ∧ ∀ c, (p, true, Some c) ∈ ws → length c ≤ length code.
Proof.
  intros fs ws p code.
  assert (∀ ws fs, template_runs fs (ws ++ [(p, true, Some code)]) = (template_to_file (template_runs fs ws) p true (Some code)).1) as A.
  { clear. induction ws as [|[[q o] c] ws IH]; intros fs; [done|]. cbn. apply IH. }
  assert (∀ ws fs n, length (default [] (template_runs fs ws !! p)) ≤ n ↔
    length (default [] (fs !! p)) ≤ n ∧ ∀ c, (p, true, Some c) ∈ ws → length c ≤ n) as L.
  { clear. induction ws as [|[[q o] c] ws IH]; intros fs n; cbn [template_runs].
    - split; [intros H; split; [done|]|by intros [H _]]. intros c Hc. by apply elem_of_nil in Hc.
    - rewrite IH. unfold template_to_file. destruct o; [|cbn [fst]]; cycle 1.
      { split; intros [H1 H2]; (split; [done|]); intros c' Hc.
        - apply elem_of_cons in Hc as [[= ]|Hc]. by apply H2.
        - apply H2. by right. }
      destruct (decide (q = p)) as [->|N].
      + destruct c as [c|]; cbn [fst]; rewrite lookup_insert; cbn [default from_option id].
        * rewrite overwrite_length. split; intros [H1 H2].
          -- split; [lia|]. intros c' Hc. apply elem_of_cons in Hc as [[= ->]|Hc]; [lia|by apply H2].
          -- split; [|intros c' Hc; apply H2; by right]. pose proof (H2 c ltac:(left)). lia.
        * split; intros [H1 H2]; (split; [done|]); intros c' Hc.
          -- apply elem_of_cons in Hc as [[= ]|Hc]. by apply H2.
          -- apply H2. by right.
      + destruct c as [c|]; cbn [fst]; rewrite lookup_insert_ne by done;
          (split; intros [H1 H2]; (split; [done|]); intros c' Hc; [apply elem_of_cons in Hc as [E|Hc]; [congruence|by apply H2]|apply H2; by right]). }
  rewrite A. rewrite <-L. cbn [template_to_file fst]. rewrite lookup_insert. unfold overwrite. split.
  - intros [= H]. apply (f_equal length) in H. rewrite app_length, drop_length in H. lia.
  - intros H. rewrite drop_ge by done. by rewrite app_nil_r.
Qed.
Print Assumptions C41_last_write.

(** A failed generation changes no file's content (but may leave an empty file). *)
Theorem C41_failed_write : ∀ fs p o code fs', template_to_file fs p o code = (fs', false) → ∀ q, default [] (fs' !! q) = default [] (fs !! q).
Proof.
  intros fs p o code fs' H q. unfold template_to_file in H. destruct o; [|by injection H as <-]. destruct code; [done|]. injection H as <-.
  destruct (decide (q = p)) as [->|N]; [by rewrite lookup_insert|by rewrite lookup_insert_ne].
Qed.
Print Assumptions C41_failed_write.

Example C41_nonvacuous : ∃ fs' : gmap string text, template_to_file {["f" := ["a"%char]]} "f" true (Some ["b"%char; "c"%char]) = (fs', true) ∧ fs' !! "f" = Some ["b"%char; "c"%char].
Proof. eexists. split; vm_compute; reflexivity. Qed.

(** A shorter text leaves the end of the longer one in the file. *)
Theorem C41_stale_end_refuted : ∃ (fs : gmap string text) p code fs', template_to_file fs p true (Some code) = (fs', true) ∧ fs' !! p ≠ Some code.
Proof. exists {["f" := ["a"%char; "b"%char]]}, "f", ["c"%char]. eexists. split; [vm_compute; reflexivity|]. vm_compute. congruence. Qed.
Print Assumptions C41_stale_end_refuted.

(** C53. Wrappers do what the wiring specification asked for, with the interface and the parameters of their own instance,
    however many there are in a module and in whatever order (and how often) they are generated: provided that different
    interfaces of the module have different names, wrappers whose parameters are written into the class have the same parameters if
    they wrap the same interface, and no interface has both a gRPC and a Thrift client. *)
Theorem C53_wrappers_behave_as_asked : ∀ ws, names_unique ws → ifaces_unique ws → one_rpc ws →
  (∀ w1 w2, w1 ∈ ws → w2 ∈ ws → parameters_in_class w1 → same_plugin w1 w2 → inst_iface w1 = inst_iface w2 → asked w1 = asked w2) →
  ∀ w, w ∈ ws → behaves (generate_all ws) w = Some (asked w).
Proof.
  intros ws NU IU OR SP w Hw. unfold behaves, generate_all.
  assert (∀ n n' i i' a a', GrpcClient n i a ∈ ws → ThriftClient n' i' a' ∈ ws → if_name i = if_name i' → False) as RPC.
  { intros n n' i i' a a' H1 H2 E. assert (i = i') as ->; [|by eapply OR]. apply (IU _ _ H1 H2). by left. }
  rewrite gen_file; try done.
  - f_equal. destruct w; done.
  - intros w' Hw' E. destruct w, w'; cbn [guard_key] in E;
      try (apply (f_equal last_char) in E; rewrite !last_char_app in E; discriminate E);
      apply app_cancel_r in E;
      try (match goal with H1 : ?a ∈ ws, H2 : ?b ∈ ws |- _ => let X := fresh in assert (X : b = a) by (by apply NU); (discriminate X || (by rewrite X)) end);
      try (exfalso; by eapply RPC); try (exfalso; eapply RPC; [eassumption|eassumption|by symmetry]);
      match goal with H1 : ?a ∈ ws, H2 : ?b ∈ ws |- _ => let X := fresh in
        assert (X : inst_iface b = inst_iface a) by (apply (IU _ _ H2 H1); by left); cbn in X; by rewrite X end.
  - intros w' Hw' E.
    assert (inst_iface w' = inst_iface w) as X.
    { apply (IU _ _ Hw' Hw). right. destruct w, w'; cbn in E |- *; congruence. }
    assert (same_plugin w' w) as S by (destruct w, w'; cbn in E; try discriminate E; exact I).
    assert (parameters_in_class w' → asked w' = asked w) as Q by (intros; by apply SP).
    unfold asked in Q. destruct w, w'; cbn in *; try done; try congruence; specialize (Q I); congruence.
  - by left.
Qed.
Print Assumptions C53_wrappers_behave_as_asked.

Definition ui : iface := Iface "app/user" "UserService" "UserService".
Definition ci : iface := Iface "app/cart" "CartService" "CartService".
Definition ex_ws : list inst :=
  [Timeout "user1.to" ui "1s"; Timeout "user2.to" ui "2s"; Timeout "cart.to" ci "3s"; CircuitBreaker "user1.cb" ui "5"; CircuitBreaker "user2.cb" ui "5"; CircuitBreaker "cart.cb" ci "6";
   GrpcClient "user1.grpc" ui "u1"; GrpcClient "user2.grpc" ui "u2"; ThriftClient "cart.thrift" ci "c"; ClientPool "cart.pool" ci "cart.client" "7"; Timeout "user1.to" ui "1s"].
Example C53_nonvacuous : names_unique ex_ws ∧ ifaces_unique ex_ws ∧ one_rpc ex_ws ∧
  (∀ w1 w2, w1 ∈ ex_ws → w2 ∈ ex_ws → parameters_in_class w1 → same_plugin w1 w2 → inst_iface w1 = inst_iface w2 → asked w1 = asked w2).
Proof.
  split_and!.
  - intros w1 w2 H1 H2. unfold ex_ws in *. set_unfold in H1. set_unfold in H2.
    repeat (destruct H1 as [->|H1]); try done; repeat (destruct H2 as [->|H2]); done.
  - intros w1 w2 H1 H2. unfold ex_ws in *. set_unfold in H1. set_unfold in H2.
    repeat (destruct H1 as [->|H1]); try done; repeat (destruct H2 as [->|H2]); cbn; try done; intros [E|E]; done.
  - intros n1 n2 i a1 a2 H1 H2. unfold ex_ws in *. set_unfold in H1. set_unfold in H2. naive_solver.
  - intros w1 w2 H1 H2. unfold ex_ws in *. set_unfold in H1. set_unfold in H2.
    repeat (destruct H1 as [->|H1]); try done; repeat (destruct H2 as [->|H2]); done.
Qed.

(** Two instances of a service with client pools, called from one process: the calls to the second go to the first. *)
Theorem C53_client_pools_refuted : ∃ ws w1 w2, names_unique ws ∧ ifaces_unique ws ∧ ws = [w1; w2] ∧
  asked w2 = (ui, ["user2.client"; "10"]) ∧ behaves (generate_all ws) w2 = Some (ui, ["user1.client"; "5"]).
Proof.
  exists [ClientPool "user1.clientpool" ui "user1.client" "5"; ClientPool "user2.clientpool" ui "user2.client" "10"]. do 2 eexists. split_and!; [| |done|done|vm_compute; reflexivity].
  - intros w1 w2 H1 H2. set_unfold in H1. set_unfold in H2. naive_solver.
  - intros w1 w2 H1 H2. set_unfold in H1. set_unfold in H2. naive_solver.
Qed.
Print Assumptions C53_client_pools_refuted.

(** Circuit breakers, and retriers, of instances of one service with different parameters: the last generated wins. *)
Theorem C53_circuit_breakers_refuted : ∃ ws w1 w2, names_unique ws ∧ ifaces_unique ws ∧ ws = [w1; w2] ∧ asked w1 = (ui, ["1"]) ∧ behaves (generate_all ws) w1 = Some (ui, ["2"]).
Proof.
  exists [CircuitBreaker "user1.cb" ui "1"; CircuitBreaker "user2.cb" ui "2"]. do 2 eexists. split_and!; [| |done|done|vm_compute; reflexivity].
  - intros w1 w2 H1 H2. set_unfold in H1. set_unfold in H2. naive_solver.
  - intros w1 w2 H1 H2. set_unfold in H1. set_unfold in H2. naive_solver.
Qed.
Print Assumptions C53_circuit_breakers_refuted.
Theorem C53_retriers_refuted : ∃ ws w1 w2, names_unique ws ∧ ifaces_unique ws ∧ ws = [w1; w2] ∧ asked w1 = (ui, ["1"]) ∧ behaves (generate_all ws) w1 = Some (ui, ["2"]).
Proof.
  exists [Retrier "user1.r" ui "1"; Retrier "user2.r" ui "2"]. do 2 eexists. split_and!; [| |done|done|vm_compute; reflexivity].
  - intros w1 w2 H1 H2. set_unfold in H1. set_unfold in H2. naive_solver.
  - intros w1 w2 H1 H2. set_unfold in H1. set_unfold in H2. naive_solver.
Qed.
Print Assumptions C53_retriers_refuted.

(** A process with a gRPC client and a Thrift client of the same interface lacks the code of one of them. *)
Theorem C53_grpc_and_thrift_refuted : ∃ ws w, names_unique ws ∧ ifaces_unique ws ∧ w ∈ ws ∧ behaves (generate_all ws) w = None.
Proof.
  exists [GrpcClient "user1.grpc" ui "a"; ThriftClient "user2.thrift" ui "b"], (ThriftClient "user2.thrift" ui "b"). split_and!; [| |set_solver|vm_compute; reflexivity].
  - intros w1 w2 H1 H2. set_unfold in H1. set_unfold in H2. naive_solver.
  - intros w1 w2 H1 H2. set_unfold in H1. set_unfold in H2. naive_solver.
Qed.
Print Assumptions C53_grpc_and_thrift_refuted.

(** Two services with interfaces of the same name in different packages: one gets the class for the other's interface. *)
Theorem C53_same_interface_name_refuted : ∃ i1 i2 ws w, i1 ≠ i2 ∧ names_unique ws ∧ w ∈ ws ∧ inst_iface w = i1 ∧ behaves (generate_all ws) w = Some (i2, ["1s"]).
Proof.
  exists (Iface "a/user" "UserService" "UserService"), (Iface "b/user" "UserService" "UserService").
  eexists [Timeout "x" (Iface "a/user" "UserService" "UserService") "1s"; Timeout "y" (Iface "b/user" "UserService" "UserService") "2s"], _.
  split_and!; [done| |left|done|vm_compute; reflexivity]. intros w1 w2 H1 H2. set_unfold in H1. set_unfold in H2. naive_solver.
Qed.
Print Assumptions C53_same_interface_name_refuted.
