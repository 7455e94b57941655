(** * What is expected of the arguments of a process *)
From Verif Require Export Conf_Model.

(** [o] gives [n] the definition [d]. *)
Definition defines (n : bytes) (o : op) (d : def) : Prop :=
  match o with OSet m v => m = n ∧ d = DValue v | ODefine m k => m = n ∧ d = DUser k | _ => False end.
(** The program's own definition of [n]: its last one. *)
Definition explicitly (os : list op) (n : bytes) (d : def) : Prop :=
  ∃ h1 o h2, os = h1 ++ o :: h2 ∧ defines n o d ∧ ∀ o' d', o' ∈ h2 → ¬ defines n o' d'.
Definition not_explicit (os : list op) (n : bytes) : Prop := ∀ o d, o ∈ os → ¬ defines n o d.

(** What [n] should be: the program's definition, else the flag, else the environment variable. *)
Inductive argument (os : list op) (w : world) (n : bytes) : option def → Prop :=
| arg_explicit d : explicitly os n d → argument os w n (Some d)
| arg_flag v : not_explicit os n → cmd w n = Some v → v ≠ [] → argument os w n (Some (DValue v))
| arg_env v : not_explicit os n → (cmd w n = None ∨ cmd w n = Some []) → env w (runtime_env_var n) = Some v → v ≠ [] →
    argument os w n (Some (DValue v))
| arg_none : not_explicit os n → (cmd w n = None ∨ cmd w n = Some []) →
    (env w (runtime_env_var n) = None ∨ env w (runtime_env_var n) = Some []) → argument os w n None.

(** [l] lists the set in some order. *)
Definition order_of (l : list bytes) (s : gset bytes) : Prop := NoDup l ∧ ∀ n, n ∈ l ↔ n ∈ s.
