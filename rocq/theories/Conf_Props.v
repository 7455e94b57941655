(** * Properties of the arguments of a process (C14) *)
From Verif Require Import Conf_Model Conf_Spec Conf_Proof.

(** C14. For every program building a namespace, every command line and environment, and any order of the
    map iterations: if some required argument is neither defined by the program nor given, the build fails
    and names exactly the missing ones; otherwise every argument is what the program defined (its last
    definition), else the flag, else the environment variable, and an optional one nobody gave fails when
    used. *)
Theorem C14_precedence :
  ∀ os flags0 flags b w ro oo, apply_ops os (flags0, new_builder) = Some (flags, b) →
    order_of ro (required b) → order_of oo (optional b) →
    match (build w ro oo b).2 with
    | Missing ms => ms ≠ [] ∧ NoDup ms ∧ ∀ n, n ∈ ms ↔ ORequired n ∈ os ∧ argument os w n None
    | Built defs =>
        (∀ n, ORequired n ∈ os → ¬ argument os w n None) ∧
        (∀ n r, ORequired n ∈ os ∨ OOptional n ∈ os → argument os w n r → get_arg defs n = r) ∧
        (∀ n, ORequired n ∉ os → OOptional n ∉ os → not_explicit os n → get_arg defs n = None)
    end.
Proof. exact build_spec. Qed.
Print Assumptions C14_precedence.

(** The specification always gives an answer, and only one. *)
Theorem C14_argument_functional :
  ∀ os flags0 st w n, apply_ops os (flags0, new_builder) = Some st →
    ∃ r, argument os w n r ∧ ∀ r', argument os w n r' → r' = r.
Proof.
  intros os flags0 st w n H. destruct (argument_exists _ _ _ w n H) as [r Hr]. exists r. split; [done|]. intros r' Hr'.
  apply (argument_fn _ _ _ _ _ _ H) in Hr. apply (argument_fn _ _ _ _ _ _ H) in Hr'. congruence.
Qed.
Print Assumptions C14_argument_functional.

(** A child namespace takes its required arguments from the program or from the enclosing namespaces,
    whatever flags and environment are. *)
Theorem C14_child_namespace :
  ∀ os flags0 flags b parents ro, apply_ops os (flags0, new_builder) = Some (flags, b) → order_of ro (required b) →
    match build_with_parent parents ro b with
    | Missing ms => ms ≠ [] ∧ NoDup ms ∧ ∀ n, n ∈ ms ↔ ORequired n ∈ os ∧ not_explicit os n ∧ ∀ p, p ∈ parents → n ∉ p
    | Built defs =>
        (∀ n, ORequired n ∈ os → (∃ d, explicitly os n d) ∨ ∃ p, p ∈ parents ∧ n ∈ p) ∧
        (∀ n d, defs !! n = Some d ↔ explicitly os n d)
    end.
Proof. exact build_with_parent_spec. Qed.
Print Assumptions C14_child_namespace.

(** Flags and environment are read by the first build only. *)
Theorem C14_read_once :
  ∀ w w' w'' ro oo ro' oo' b, build w' ro' oo' (build w ro oo b).1 = build w'' ro' oo' (build w ro oo b).1.
Proof. intros. apply second_build_pure, parse_flags_parsed. Qed.
Print Assumptions C14_read_once.

Definition name_a : bytes := String.list_ascii_of_string "a.grpc.bind_addr".
Definition name_b : bytes := String.list_ascii_of_string "b".
Definition name_c : bytes := String.list_ascii_of_string "c".
Definition name_d : bytes := String.list_ascii_of_string "d".
Definition val_1 : bytes := String.list_ascii_of_string "1".
Definition val_2 : bytes := String.list_ascii_of_string "2".
Definition ex_world : world :=
  World (λ n, if bool_decide (n = name_b) then Some val_1 else if bool_decide (n = name_c) then Some val_1 else None)
        (λ n, if bool_decide (n = String.list_ascii_of_string "A_GRPC_BIND_ADDR") then Some val_2
              else if bool_decide (n = String.list_ascii_of_string "B") then Some val_2 else None).
Example C14_nonvacuous :
  let os := [ORequired name_a; ORequired name_b; OOptional name_c; OSet name_c val_1; OSet name_c val_2; OOptional name_d] in
  ∃ flags b, apply_ops os (∅, new_builder) = Some (flags, b) ∧
    order_of [name_b; name_a] (required b) ∧ order_of [name_c; name_d] (optional b) ∧
    (∃ defs, (build ex_world [name_b; name_a] [name_c; name_d] b).2 = Built defs ∧
      get_arg defs name_a = Some (DValue val_2) ∧ get_arg defs name_b = Some (DValue val_1) ∧
      get_arg defs name_c = Some (DValue val_2) ∧ get_arg defs name_d = None) ∧
    (build (World (λ _, None) (env ex_world)) [name_b; name_a] [name_c; name_d] b).2 ≠ Missing [] ∧
    (build (World (λ _, None) (λ _, None)) [name_b; name_a] [name_c; name_d] b).2 = Missing [name_b; name_a].
Proof.
  intros os. do 2 eexists. split; [reflexivity|]. split; [split; [by repeat constructor; set_solver|set_solver]|].
  split; [split; [by repeat constructor; set_solver|set_solver]|]. split; [eexists; split; [reflexivity|]; split_and!; by vm_compute|].
  split; [by vm_compute|by vm_compute].
Qed.

(** An empty flag does not override the environment variable. *)
Theorem C14_empty_flag_refuted :
  ∃ w n v flags b, apply_ops [ORequired n] (∅, new_builder) = Some (flags, b) ∧ cmd w n = Some [] ∧ v ≠ [] ∧
    ∃ defs, (build w [n] [] b).2 = Built defs ∧ get_arg defs n = Some (DValue v).
Proof.
  exists (World (λ _, Some []) (λ _, Some val_2)), name_b, val_2. do 2 eexists. split; [reflexivity|]. split; [done|]. split; [done|].
  eexists. split; [reflexivity|by vm_compute].
Qed.
Print Assumptions C14_empty_flag_refuted.

(** A name cannot be declared twice, not even in two namespaces of the process: the second declaration
    panics, for every program. *)
Theorem C14_redeclaration_panics :
  ∀ os1 os2 flags0 n o o', (o = ORequired n ∨ o = OOptional n) → (o' = ORequired n ∨ o' = OOptional n) →
    ∀ b b', match apply_ops (os1 ++ [o]) (flags0, b) with
            | Some (flags, _) => apply_ops (os2 ++ [o']) (flags, b') = None
            | None => True
            end.
Proof.
  assert (∀ os n st st', n ∈ st.1 → apply_ops os st = Some st' → n ∈ st'.1) as Hmono.
  { induction os as [|o os IH]; intros n st st' Hn; cbn [apply_ops]; [by intros [= <-]|]. destruct (apply_op o st) as [st1|] eqn:Ho; [|done].
    apply IH. destruct st as [fl b]. destruct o; cbn [apply_op] in Ho; repeat case_bool_decide; simplify_eq; set_solver. }
  intros os1 os2 flags0 n o o' Ho Ho' b b'. rewrite apply_ops_app. destruct (apply_ops os1 (flags0, b)) as [[f1 b1]|]; [|done]. cbn [apply_ops].
  destruct (apply_op o (f1, b1)) as [[flags b2]|] eqn:Ha; [|done].
  assert (n ∈ flags) as Hin by (destruct Ho as [-> | ->]; cbn [apply_op] in Ha; case_bool_decide; simplify_eq; set_solver).
  rewrite apply_ops_app. destruct (apply_ops os2 (flags, b')) as [[f3 b3]|] eqn:H2; [|done]. apply (Hmono _ n) in H2; [|done].
  cbn [apply_ops]. destruct Ho' as [-> | ->]; cbn [apply_op]; by rewrite bool_decide_true.
Qed.
Print Assumptions C14_redeclaration_panics.
