(** * What is expected of building the IR *)
From Verif Require Export NS_Model.

(** Aliases resolve to names of definitions (proved of wiring specs in Wiring, see NS_Props). *)
Definition canonical (getdef : wiring) : Prop := ∀ name d, getdef name = Some d → getdef (w_name d) = Some d.

(** An execution of BuildIR up to some point. *)
Definition execution (getdef : wiring) (reqs : list string) (ls : list label) (s : state) : Prop := run getdef (init reqs) ls = Some s.

(** The nodes being built, in which namespaces. *)
Definition building (s : state) : list (nat * string) :=
  omap (λ f, match f with FBuild n name _ _ => Some (n, name) | _ => None end) (stack s).
(** No node depends on itself: at no time is a node being built twice in one namespace. *)
Definition acyclic (getdef : wiring) (reqs : list string) (ls : list label) : Prop :=
  ∀ ls1 ls2 s, ls = ls1 ++ ls2 → run getdef (init reqs) ls1 = Some s → NoDup (building s).
(** Nobody calls Put (nothing in the repository does). *)
Definition no_put (ls : list label) : Prop := ∀ n name v, LPut n name v ∉ ls.

(** [j] is the first namespace from [n] outwards that accepts the type. *)
Inductive nearest (l : list nspace) (t : nat) : nat → nat → Prop :=
| near_here n x : l !! n = Some x → n_accepts x t = true → nearest l t n n
| near_up n x p j : l !! n = Some x → n_accepts x t = false → n_parent x = Some p → nearest l t p j → nearest l t n j.
(** Getting [name] in [n] is getting [c] in [j]: [c] is the definition the name stands for, [j] the nearest
    namespace accepting it. *)
Definition home (getdef : wiring) (l : list nspace) (n : nat) (name : string) (j : nat) (c : string) : Prop :=
  ∃ d, getdef name = Some d ∧ c = w_name d ∧ nearest l (w_type d) n j.

Definition accepts_type (s : state) (n t : nat) : Prop := ∃ x, nss s !! n = Some x ∧ n_accepts x t = true.
Definition rejects_type (s : state) (n t : nat) : Prop := ∃ x, nss s !! n = Some x ∧ n_accepts x t = false.

(** [e1] comes before [e2] in the trace. *)
Definition before (e1 e2 : event) (t : list event) : Prop := ∃ t1 t2 t3, t = t1 ++ e1 :: t2 ++ e2 :: t3.

(** The events that put a node of name [k] into namespace [n], or record an edge from it to one. *)
Definition about (n : nat) (k : string) (e : event) : Prop :=
  match e with ENode i _ v | EEdge i _ v => i = n ∧ nd_name v = k | _ => False end.
Global Instance about_dec n k e : Decision (about n k e).
Proof. destruct e; simpl; apply _. Defined.
(** The definition has been asked for by Get ([e]) or by Instantiate (not [e]). *)
Definition asked (getdef : wiring) (reqs : list string) (ls : list label) (e : bool) (d : wdef) : Prop :=
  (∃ n name, LGet n name e ∈ ls ∧ getdef name = Some d) ∨ (e = true ∧ ∃ name, name ∈ reqs ∧ getdef name = Some d).
