(** * Specification vocabulary for run.sh (C45) *)
From Verif Require Import RunSh_Model.
Open Scope list_scope.

(** A process was declared with dependency [d]; a process was declared. *)
Definition declared (cs : list rcmd) (n : string) : Prop := ∃ c, c ∈ cs ∧ rc_name c = n.
Definition depends (cs : list rcmd) (n d : string) : Prop := ∃ c, c ∈ cs ∧ rc_name c = n ∧ d ∈ rc_deps c.

(** Process names are declared once and do not share a function name. *)
Definition names_ok (cs : list rcmd) : Prop :=
  NoDup (rc_name <$> cs) ∧ ∀ n n', declared cs n → declared cs n' → FuncName n = FuncName n' → n = n'.

(** Processes depend on each other without cycles, and chains are shorter than [fuel]. *)
Definition acyclic (cs : list rcmd) (fuel : nat) : Prop :=
  ∃ rank : string → nat, (∀ n, declared cs n → rank n < fuel) ∧
    ∀ n d, depends cs n d → declared cs d → rank d < rank n.

(** Running the body of a process never unsets variables. *)
Definition keeps_vars (body : bodies) : Prop := ∀ n e, e ⊆ (body n e).1.
(** Every body succeeds and sets the variable of its process, as the generated ones do: they start
    the process in the background and set the variable to its process id. *)
Definition bodies_succeed (body : bodies) : Prop :=
  ∀ n e, e ⊆ (body n e).1 ∧ EnvVar n ∈ (body n e).1 ∧ (body n e).2 = true.

(** How often a process was started. *)
Definition starts (n : string) (log : list (string * gset string)) : nat :=
  length (filter (λ x, x.1 = n) log).
(** Each start of a process found the variables of all its dependencies set. *)
Definition deps_first (cs : list rcmd) (log : list (string * gset string)) : Prop :=
  ∀ n e, (n, e) ∈ log → declared cs n ∧ ∀ d, depends cs n d → EnvVar d ∈ e.
