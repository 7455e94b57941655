(** * Properties of run.sh (C45) *)
From Verif Require Import RunSh_Model RunSh_Spec RunSh_Proof.
From Coq Require Import Lia.
Open Scope list_scope.

(** C45. The variables checked before anything starts are those of the declared dependencies that
    have no run function of their own; they are listed in the usage message as well, which ranges
    over the same list. *)
Theorem C45_arguments_exact :
  ∀ cs r, declare_all cs new_run_script = Some r → names_ok cs →
    ∀ n, n ∈ sc_args (generate_run_script r) ↔ (∃ m, depends cs m n) ∧ ¬ declared cs n.
Proof. exact sc_args_spec. Qed.
Print Assumptions C45_arguments_exact.

(** If one of them is missing the script fails and starts nothing. *)
Theorem C45_missing_variable_starts_nothing :
  ∀ cs r fuel body env a,
    declare_all cs new_run_script = Some r → names_ok cs →
    (∃ m, depends cs m a) → ¬ declared cs a → EnvVar a ∉ env →
    run_sh fuel r body env = Some (Shell env [], false).
Proof. intros cs r fuel body env a Hr Hn. exact (run_sh_missing cs r Hr Hn fuel body env a). Qed.
Print Assumptions C45_missing_variable_starts_nothing.

(** If none is missing and processes do not depend on each other, every process is started exactly
    once, in the order of names, with all variables it depends on set, whatever other processes
    do, provided they do not unset variables. *)
Theorem C45_independent_processes_start_once :
  ∀ cs r fuel body env,
    declare_all cs new_run_script = Some r → names_ok cs →
    (∀ a m, depends cs m a → ¬ declared cs a → EnvVar a ∈ env) →
    keeps_vars body → (∀ n d, depends cs n d → ¬ declared cs d) → 0 < fuel →
    ∃ s, run_sh fuel r body env = Some (s, true) ∧
      (sh_log s).*1 ≡ₚ rc_name <$> cs ∧ (sh_log s).*1 = sort_strings (rc_name <$> cs) ∧
      deps_first cs (sh_log s).
Proof.
  intros cs r fuel body env Hr Hn Ha Hk Hi Hf.
  destruct (run_independent cs r Hr Hn fuel body env Ha Hk Hi Hf) as (s&H1&H2&H3).
  destruct (sc_funcs_spec cs r Hr Hn) as [S1 S2].
  assert (Hp : sc_funcs (generate_run_script r) ≡ₚ rc_name <$> cs).
  { apply NoDup_Permutation; [done|apply Hn|]. intros n. rewrite S2, elem_of_list_fmap. unfold declared. naive_solver. }
  exists s. rewrite H2. split_and!; [done|done| |done].
  cbn in *. apply Env_Proof.sort_strings_eq. by rewrite <-Hp, Env_Proof.sort_strings_perm.
Qed.
Print Assumptions C45_independent_processes_start_once.

(** With dependencies between processes, if every body succeeds and sets its variable and there
    are no cycles, the script succeeds; every process is started at least once and at most twice,
    never before the processes and variables it depends on; a second start happens only to
    processes another one depends on. *)
Theorem C45_dependencies_start_first :
  ∀ cs r fuel body env,
    declare_all cs new_run_script = Some r → names_ok cs →
    (∀ a m, depends cs m a → ¬ declared cs a → EnvVar a ∈ env) →
    bodies_succeed body → acyclic cs fuel →
    ∃ s, run_sh fuel r body env = Some (s, true) ∧ deps_first cs (sh_log s) ∧
      (∀ n, declared cs n → 1 ≤ starts n (sh_log s) ≤ 2 ∧ EnvVar n ∈ sh_env s ∧
         (starts n (sh_log s) = 2 → (∃ m, depends cs m n) ∧ EnvVar n ∉ env)).
Proof. intros cs r fuel body env Hr Hn Ha Hb (rank&R1&R2). by apply (run_dependent cs r Hr Hn body Hb fuel rank). Qed.
Print Assumptions C45_dependencies_start_first.

(** The body of a run function is the text between the first opening and the last closing brace;
    without a body declaring the command is an error. *)
Theorem C45_body_extracted :
  ∀ pre body post deps,
    "{"%char ∉ pre → "}"%char ∉ post →
    generate_run_func (pre ++ "{"%char :: body ++ "}"%char :: post) deps =
      if decide (body = []) then None else Some (Rfunc deps body).
Proof.
  intros pre body post deps H1 H2. unfold generate_run_func. rewrite get_func_body_spec by done.
  by destruct body.
Qed.
Print Assumptions C45_body_extracted.

(** A gateway that depends on a cache in the same container and on two addresses. *)
Definition cmd (s : string) : list ascii := list_ascii_of_string s.
Definition ex_cmds : list rcmd :=
  [Rcmd "gateway" (cmd "run_gateway { cd gateway; ./gateway & }") ["gateway.bind_addr"; "zcache"];
   Rcmd "zcache" (cmd "run_zcache { redis & }") ["cache.bind_addr"]]%string.
Definition ex_body : bodies := λ n e, ({[EnvVar n]} ∪ e, true).
Definition ex_env : gset string := {["GATEWAY_BIND_ADDR"; "CACHE_BIND_ADDR"]}%string.
Ltac ex_cases := repeat match goal with
  | H : _ ∈ [] |- _ => by apply elem_of_nil in H
  | H : _ ∈ _ :: _ |- _ => apply elem_of_cons in H as [H|H]
  | H : declared _ _ |- _ => destruct H as (?&H&?)
  | H : depends _ _ _ |- _ => destruct H as (?&H&?&?)
  end; subst.
Lemma ex_names : names_ok ex_cmds.
Proof.
  split; [apply (bool_decide_unpack _); vm_compute; exact I|].
  intros n n' H H' E. unfold ex_cmds in *. ex_cases; try done; by vm_compute in E.
Qed.
Lemma ex_acyclic : acyclic ex_cmds 10.
Proof.
  exists (λ n, if bool_decide (n = "gateway"%string) then 1 else 0). split.
  - intros n H. case_bool_decide; lia.
  - intros n d H H'. unfold ex_cmds in *. ex_cases; cbn in *; ex_cases; try done; vm_compute; lia.
Qed.
Example C45_nonvacuous :
  names_ok ex_cmds ∧ acyclic ex_cmds 10 ∧ bodies_succeed ex_body ∧ keeps_vars ex_body ∧
  (∀ a m, depends ex_cmds m a → ¬ declared ex_cmds a → EnvVar a ∈ ex_env) ∧
  ∃ r, declare_all ex_cmds new_run_script = Some r ∧
    sc_args (generate_run_script r) = ["cache.bind_addr"; "gateway.bind_addr"]%string ∧
    (λ x, ((sh_log x.1).*1, x.2)) <$> run_sh 10 r ex_body ex_env = Some (["zcache"; "gateway"; "zcache"], true)%string ∧
    (λ x, ((sh_log x.1).*1, x.2)) <$> run_sh 10 r ex_body {["GATEWAY_BIND_ADDR"]}%string = Some ([], false).
Proof.
  split_and!; [exact ex_names|exact ex_acyclic| | | |].
  - intros n e. unfold ex_body. cbn. split_and!; [set_solver|set_solver|done].
  - intros n e. unfold ex_body. cbn. set_solver.
  - intros a m H Hn. unfold ex_cmds in H. ex_cases; cbn in *; ex_cases; try (apply (bool_decide_unpack _); vm_compute; exact I).
    destruct Hn. eexists. split; [right; left|done].
  - eexists. split; [reflexivity|]. vm_compute. done.
Qed.
Example C45_nonvacuous_independent :
  let cs := [Rcmd "b" (cmd "f {x}") ["b.addr"]; Rcmd "a" (cmd "f {y}") ["b.addr"; "a.addr"]]%string in
  names_ok cs ∧ (∀ n d, depends cs n d → ¬ declared cs d) ∧ is_Some (declare_all cs new_run_script).
Proof.
  cbn zeta. split_and!.
  - split; [apply (bool_decide_unpack _); vm_compute; exact I|].
    intros n n' H H' E. ex_cases; try done; by vm_compute in E.
  - intros n d H H'. ex_cases; cbn in *; ex_cases; done.
  - vm_compute. by eexists.
Qed.

(** Finding: run_all calls every run function without checking whether the process has already been
    started for another one, so a process another one depends on is started twice. *)
Theorem C45_each_process_starts_once_refuted :
  ∃ cs r env s, declare_all cs new_run_script = Some r ∧ names_ok cs ∧ acyclic cs 10 ∧
    run_sh 10 r ex_body env = Some (s, true) ∧ starts "zcache" (sh_log s) = 2.
Proof.
  set (r := default new_run_script (declare_all ex_cmds new_run_script)).
  assert (Hx : (λ x, (starts "zcache" (sh_log x.1), x.2)) <$> run_sh 10 r ex_body ex_env = Some (2, true)) by (vm_compute; reflexivity).
  destruct (run_sh 10 r ex_body ex_env) as [[s b]|] eqn:E; [|done]. cbn in Hx. injection Hx as Hs ->.
  exists ex_cmds, r, ex_env, s.
  split_and!; [reflexivity|exact ex_names|exact ex_acyclic|done|done].
Qed.
Print Assumptions C45_each_process_starts_once_refuted.

(** Finding: if a dependency fails, its dependent is not run but its function returns 0, because
    the status of [! f] is 0; a third process that depends on the second is then started although
    its dependency never was, and the script succeeds. *)
Theorem C45_failed_dependency_stops_dependents_refuted :
  ∃ cs r body s, declare_all cs new_run_script = Some r ∧ names_ok cs ∧ acyclic cs 10 ∧ keeps_vars body ∧
    run_sh 10 r body ∅ = Some (s, true) ∧ depends cs "c" "b" ∧ declared cs "b" ∧
    starts "b" (sh_log s) = 0 ∧ starts "c" (sh_log s) = 1 ∧ EnvVar "b" ∉ sh_env s.
Proof.
  set (cs := [Rcmd "a" (cmd "f {x}") []; Rcmd "b" (cmd "f {y}") ["a"]; Rcmd "c" (cmd "f {z}") ["b"]]%string).
  set (r := default new_run_script (declare_all cs new_run_script)).
  set (body := (λ n e, if bool_decide (n = "a"%string) then (e, false) else ({[EnvVar n]} ∪ e, true)) : bodies).
  assert (Hx : (λ x, (starts "b" (sh_log x.1), starts "c" (sh_log x.1), bool_decide (EnvVar "b" ∈ sh_env x.1), x.2)) <$> run_sh 10 r body ∅
    = Some (0, 1, false, true)) by (vm_compute; reflexivity).
  destruct (run_sh 10 r body ∅) as [[s b]|] eqn:E; [|done]. cbn -[EnvVar starts] in Hx. injection Hx as Hb Hc He ->.
  exists cs, r, body, s. apply bool_decide_eq_false in He.
  split_and!; [reflexivity| | | |done| | |done|done|done].
  - split; [apply (bool_decide_unpack _); vm_compute; exact I|].
    intros n n' H H' Ev. unfold cs in *. ex_cases; try done; by vm_compute in Ev.
  - exists (λ n, if bool_decide (n = "c"%string) then 2 else if bool_decide (n = "b"%string) then 1 else 0). split.
    + intros n H. repeat case_bool_decide; lia.
    + intros n d H H'. unfold cs in *. ex_cases; cbn in *; ex_cases; try done; vm_compute; lia.
  - intros n e. unfold body. case_bool_decide; cbn; set_solver.
  - eexists. split; [right; right; left|]. split; [done|left].
  - eexists. split; [right; left|done].
Qed.
Print Assumptions C45_failed_dependency_stops_dependents_refuted.
