(** * What is expected of run-time namespaces *)
From Verif Require Export RunNS_Model.

(** An execution: some steps from the start, and what they showed. *)
Definition execution (ls : list label) (s : state) (os : list obs) : Prop := run init ls = Some (s, os).

(** Some thread is building this node. *)
Definition in_progress (s : state) (j : nat) (name : string) : Prop := ∃ t, (j, name) ∈ stack s t.
(** No build function is called while an earlier call of it is still in progress: there is no cycle among
    the nodes, and no two threads build the same node at the same time. *)
Definition exclusive (ls : list label) : Prop :=
  ∀ ls1 l ls2 s os s' j name, ls = ls1 ++ l :: ls2 → run init ls1 = Some (s, os) →
    step s l = Some (s', OStart j name) → ¬ in_progress s j name.

(** [o] is a return of Get handing out the instance [v] of a node, freshly built or not. *)
Definition hands_out (j : nat) (name : string) (v : nat) (o : obs) : Prop :=
  o = OHit j name v ∨ ∃ run, o = OBuilt j name v run.
Definition is_built (j : nat) (name : string) (o : obs) : Prop := ∃ v run, o = OBuilt j name v run.

Definition tasks_of (s : state) (j : nat) (name : string) : list task :=
  filter (λ t, t_ns t = j ∧ t_name t = name) (tasks s).
(** [a] is [n] or encloses it. *)
Inductive encloses (l : list ns) (a : nat) : nat → Prop :=
| enc_refl : encloses l a a
| enc_step n p : parent_of l n = Some p → encloses l a p → encloses l a n.
(** Why the context of a namespace was cancelled: it was shut down, or one of its nodes failed running. *)
Definition cause (ls : list label) (s : state) (a : nat) : Prop :=
  LShutdown a ∈ ls ∨ ∃ i tk, LExit i true ∈ ls ∧ tasks s !! i = Some tk ∧ t_ns tk = a.
(** [j] is the first namespace from [n] outwards that defines the name. *)
Inductive nearest (l : list ns) (name : string) : nat → nat → Prop :=
| near_here n x : l !! n = Some x → name ∈ defs x → nearest l name n n
| near_up n x p j : l !! n = Some x → name ∉ defs x → parent x = Some p → nearest l name p j → nearest l name n j.
