(** * Properties of generated names (C09) and of re-indentation (C47) *)
From Verif Require Import Names_Model Names_Spec Names_Proof.

(** C09. For every string: only letters, digits, spaces and underscores remain, no leading digit,
    no two adjacent underscores; cleaning is idempotent and leaves legal names alone; and the
    letters, digits and spaces of the input survive in order except for stripped leading digits. *)
Theorem C09_clean_name_legal :
  ∀ s, (∀ c, c ∈ clean_name s → legal c = true) ∧
       digit_free_start (clean_name s) ∧
       no_double (clean_name s).
Proof. intros s. split_and!; [apply clean_legal|apply clean_start|apply clean_no_double]. Qed.
Print Assumptions C09_clean_name_legal.

Theorem C09_clean_name_idempotent : ∀ s, clean_name (clean_name s) = clean_name s.
Proof. exact clean_idemp. Qed.
Print Assumptions C09_clean_name_idempotent.

Theorem C09_legal_names_unchanged :
  ∀ s, (∀ c, c ∈ s → legal c = true) → digit_free_start s → no_double s → clean_name s = s.
Proof. exact clean_id. Qed.
Print Assumptions C09_legal_names_unchanged.

Theorem C09_content_preserved :
  ∀ s, ∃ p, List.filter kept s = p ++ List.filter kept (clean_name s) ∧
            Forall (λ c, is_digit c = true) p.
Proof. exact clean_content. Qed.
Print Assumptions C09_content_preserved.

(** An environment variable name is legal, has no lower-case letter, is a function of the cleaned
    name, is a fixpoint of EnvVar, and the name computed at compile time (plugins/linux) is the one
    the generated program computes at run time (runtime/plugins/golang). *)
Theorem C09_env_var :
  ∀ s, (∀ c, c ∈ env_var s → legal c = true ∧ is_lower c = false) ∧
       digit_free_start (env_var s) ∧
       env_var (env_var s) = env_var s ∧
       env_var (clean_name s) = env_var s ∧
       runtime_env_var s = env_var s.
Proof.
  intros s. split_and!; [apply env_legal|apply env_start|apply env_idemp|apply env_clean|done].
Qed.
Print Assumptions C09_env_var.

Example C09_nonvacuous :
  clean_name (str "12my-svc.grpc__bind_addr") = str "my_svc_grpc_bind_addr" ∧
  env_var (str "my-svc.grpc.bind_addr") = str "MY_SVC_GRPC_BIND_ADDR".
Proof. by vm_compute. Qed.

(** Two different names may become the same identifier, also as environment variables. *)
Theorem C09_injective_refuted :
  ¬ (∀ s t, clean_name s = clean_name t → s = t) ∧ ¬ (∀ s t, env_var s = env_var t → s = t).
Proof.
  split; intros H; by specialize (H (str "a.b") (str "a_b") eq_refl).
Qed.
Print Assumptions C09_injective_refuted.

(** The documentation of CleanName says only alphanumerics and underscores remain; spaces do. And
    a name may become empty. *)
Theorem C09_no_spaces_refuted :
  ¬ (∀ s c, c ∈ clean_name s → is_space c = false) ∧ ¬ (∀ s, s ≠ [] → clean_name s ≠ []).
Proof.
  split; intros H.
  - specialize (H (str "my service") space). assert (is_space space = false); [|done].
    apply H. vm_compute. do 2 right. left.
  - by apply (H (str "42")).
Qed.
Print Assumptions C09_no_spaces_refuted.

(** ReplaceSuffix replaces the suffix when present and appends ".rep" otherwise. *)
Theorem C09_replace_suffix :
  ∀ s suf rep,
    (∀ b, s = b ++ suf → replace_suffix s suf rep = b ++ rep) ∧
    ((∀ b, s ≠ b ++ suf) → replace_suffix s suf rep = s ++ ["."%char] ++ rep).
Proof. exact replace_suffix_spec. Qed.
Print Assumptions C09_replace_suffix.

(** C47. Indent prefixes every line and nothing else, and indentations add up. *)
Theorem C47_indent_lines :
  ∀ s amount, split_lines (indent s amount) = (λ l, replicate amount space ++ l) <$> split_lines s.
Proof. exact indent_lines. Qed.
Print Assumptions C47_indent_lines.

Theorem C47_indent_composes :
  ∀ s a b, indent s 0 = s ∧ indent (indent s a) b = indent s (b + a).
Proof. intros s a b. split; [apply indent_zero|apply indent_add]. Qed.
Print Assumptions C47_indent_composes.

(** Reindent keeps the number of lines; blank lines become empty; every other line (tabs expanded)
    is shifted by one amount common to all lines, so relative indentation is preserved; and unless
    every line is indented beyond the cap, the least indented line ends at the requested column. *)
Theorem C47_reindent_shifts :
  ∀ s amount, ∃ cur,
    Forall2 (λ l l', if blank l then l' = [] else shifted cur amount (expand_tabs l) l')
      (split_lines s) (split_lines (reindent s amount)) ∧
    (cur = N.to_nat 10000 ∨
     ∃ l, l ∈ split_lines s ∧ blank l = false ∧ leading_spaces (expand_tabs l) = cur).
Proof. exact reindent_shifts. Qed.
Print Assumptions C47_reindent_shifts.

Example C47_nonvacuous :
  let nl := String newline "" in
  reindent_cap 100 (str ("   a" +:+ nl +:+ " " +:+ nl +:+ "     b")) 1 =
    str (" a" +:+ nl +:+ nl +:+ "   b").
Proof. by vm_compute. Qed.
