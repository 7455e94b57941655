(** * Specification vocabulary for port assignment *)
From Verif Require Export Ports_Model.

(** Every heap cell holds a uint16 port and preferred port. *)
Definition wf_heap (h : heap) : Prop :=
  ∀ p b, h !! p = Some b → (b_port b < 65536)%N ∧ (b_pref b < 65536)%N.

(** Binds that come with a port, and those that need one. *)
Definition preset (h : heap) (binds : list nat) : list nat := filter (λ b, port_of h b ≠ 0%N) binds.
Definition unset (h : heap) (binds : list nat) : list nat := filter (λ b, port_of h b = 0%N) binds.

