(** * Specification vocabulary for the docker-compose deployment (C42) *)
From Verif Require Import Compose_Model Ports_Spec.
Open Scope list_scope.

(** Go ranges over InstanceArgs in any order, each instance once. *)
Definition range_order {A} (m : gmap string A) (order : list string) : Prop :=
  NoDup order ∧ ∀ n, n ∈ order ↔ is_Some (m !! n).

(** Instance [j] has argument [a]. *)
Definition has_arg (w : dws) (j : string) (a : carg) : Prop :=
  ∃ args, w_args w !! j = Some args ∧ a ∈ args.

Definition arg_name (h : heap) (a : carg) : option string :=
  match a with
  | ABind b => Some (b_key (deref h b))
  | ADial k _ => Some k
  | AConf k _ _ => Some k
  | ABad => None
  end.

(** What a deployment must satisfy: bind configs are real objects, each belongs to one instance,
    and within an instance different arguments have different environment variables. *)
Definition deployment_ok (h : heap) (w : dws) : Prop :=
  (∀ j b, has_arg w j (ABind b) → is_Some (h !! b)) ∧
  (∀ j j' b, has_arg w j (ABind b) → has_arg w j' (ABind b) → j = j') ∧
  (∀ j a a' n n', has_arg w j a → has_arg w j a' → arg_name h a = Some n → arg_name h a' = Some n' →
     EnvVar n = EnvVar n' → a = a').

(** Every address is bound at most once in the deployment. *)
Definition addresses_unique (h : heap) (w : dws) : Prop :=
  ∀ j j' b b', has_arg w j (ABind b) → has_arg w j' (ABind b') →
    b_addr (deref h b) = b_addr (deref h b') → b = b'.

(** An instance whose arguments cannot be processed. *)
Definition unusable (h : heap) (w : dws) (j : string) : Prop :=
  has_arg w j ABad ∨
  ∃ args, w_args w !! j = Some args ∧ ¬ NoDup (port_of h <$> preset h (binds_of args)).

