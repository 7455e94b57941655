(** * Specification vocabulary for the Kubernetes deployment (C43) *)
From Verif Require Import Ports_Model Compose_Model Compose_Spec Kube_Model.
Open Scope list_scope.

(** Container [j] of pod number [i] has argument [a]. *)
Definition has_karg (pods : list pod) (i : nat) (j : string) (a : carg) : Prop :=
  ∃ p args, pods !! i = Some p ∧ kw_args (p_ws p) !! j = Some args ∧ a ∈ args.

(** What an application must satisfy. *)
Definition app_ok (h : heap) (pods : list pod) : Prop :=
  (* workspaces come from successful declarations, and Go ranges over maps in some order *)
  (∀ i p, pods !! i = Some p → (∃ ops, do_kops kws0 ops = Some (p_ws p)) ∧
     range_order (kw_args (p_ws p)) (p_o1 p) ∧ range_order (kw_args (p_ws p)) (p_o2 p)) ∧
  (* bind configs are real objects and belong to one container *)
  (∀ i j b, has_karg pods i j (ABind b) → is_Some (h !! b)) ∧
  (∀ i j i' j' b, has_karg pods i j (ABind b) → has_karg pods i' j' (ABind b) → i = i' ∧ j = j') ∧
  (* the arguments of a container have different variables, its binds different address names *)
  (∀ i j a a' n n', has_karg pods i j a → has_karg pods i j a' →
     arg_name h a = Some n → arg_name h a' = Some n' → EnvVar n = EnvVar n' → a = a') ∧
  (∀ i j b b', has_karg pods i j (ABind b) → has_karg pods i j (ABind b') →
     b_addr (deref h b) = b_addr (deref h b') → b = b') ∧
  (* dials with one variable have one address *)
  (∀ i j k a i' j' k' a', has_karg pods i j (ADial k a) → has_karg pods i' j' (ADial k' a') →
     EnvVar k = EnvVar k' → a = a').

(** Address [a] is bound in pod [i]. *)
Definition bound_in (h : heap) (pods : list pod) (i : nat) (a : string) : Prop :=
  ∃ j b, has_karg pods i j (ABind b) ∧ b_addr (deref h b) = a.

(** Container [j] of pod [i] has a variable whose value is known when the pod's manifest is written:
    one set explicitly, a bind without a port of its own, or a dial of an address in the pod. *)
Definition has_direct (h : heap) (pods : list pod) (i : nat) (j : string) (i0 : kinst) : Prop :=
  k_config i0 ≠ ∅ ∨
  (∃ b, has_karg pods i j (ABind b) ∧ port_of h b = 0%N) ∨
  (∃ k a, has_karg pods i j (ADial k a) ∧ bound_in h pods i a).

(** The value a container sees for a variable, given the contents of the config map. *)
Definition effective (data : gmap string string) (i : kinst) (v : string) : option string :=
  match k_shown_env i v with
  | Some (Direct s) => Some s
  | Some (FromConfigMap key) => data !! key
  | None => None
  end.
