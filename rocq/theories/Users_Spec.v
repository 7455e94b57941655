(** * What the user service should do *)
From Verif Require Export Users_Model.
From stdpp Require Export list.
Open Scope Z_scope.

(** Histories between two worlds, with [P] for each event where it happens *)
Inductive run (hash : string → string) (P : world → event → Prop) : world → list event → world → Prop :=
  | run_nil w : run hash P w [] w
  | run_snoc w es w1 e w2 : run hash P w es w1 → P w1 e → step hash e w1 = Some w2 → run hash P w (es ++ [e]) w2.
(** Any history *)
Definition history (hash : string → string) : list event → world → Prop := run hash (λ _ _, True) started.

(** The account of a user name: the first that was stored *)
Definition account (w : world) (u : string) (d : user) : Prop :=
  ∃ l1 l2, w_docs w = l1 ++ d :: l2 ∧ us_name d = u ∧ ∀ d', d' ∈ l1 → us_name d' ≠ u.
(** It was made by this call *)
Definition made_by (hash : string → string) (o : op) (d : user) : Prop :=
  ∃ u p i s, o = Register u p i s ∧ d = User u i (hash (p +:+ s)) s.
Definition has_password (hash : string → string) (d : user) (p : string) : Prop := us_hash d = hash (p +:+ us_salt d).

(** The backends work for call [t], and it is not killed *)
Definition works_for (t : nat) (e : event) : Prop := match e with Step t' f => t' = t → f = Fine | Kill t' => t' ≠ t | _ => True end.
(** A user name is registered while no other call registers it *)
Definition registers (o : op) (u : string) : Prop := ∃ p i s, o = Register u p i s.
Definition exclusive (w : world) (e : event) : Prop :=
  match e with
  | Start (Register u _ _ _) => ∀ o q, (o, Running q) ∈ w_calls w → ¬ registers o u
  | _ => True
  end.
(** What is known about the hash: never empty (base64 of 20 bytes), and, for lack of collisions, injective *)
Definition good_hash (hash : string → string) : Prop := (∀ x, hash x ≠ "") ∧ ∀ x y, hash x = hash y → x = y.
(** How often call [t] was served by a backend *)
Definition step_of (t : nat) (e : event) : Prop := match e with Step t' _ => t' = t | _ => False end.
Global Instance step_of_dec t e : Decision (step_of t e).
Proof. destruct e; simpl; apply _. Defined.
Definition steps_of (t : nat) (es : list event) : nat := length (filter (step_of t) es).
