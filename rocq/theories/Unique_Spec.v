(** * What is expected of the uniqueness check *)
From Verif Require Export Unique_Model NS_Spec.

(** At no time are two of the checks running: the node does not (indirectly) depend on itself. *)
Definition solo (getdef : wiring) (check : string) (reqs : list string) (ls : list label) : Prop :=
  ∀ ls1 ls2 s n1 n2, ls = ls1 ++ ls2 → run getdef (init reqs) ls1 = Some s →
    (n1, check) ∈ building s → (n2, check) ∈ building s → n1 = n2.

(** ** Deferred functions: the answers they get, and how they end *)
Inductive answer_to :=
| AGet (name : string) (edge : bool) (r : option node)
| ADest (a : node) (d : option node).
(** [ends p h ok]: a run of [p] with history of answers [h] ends, returning an error unless [ok]. *)
Inductive ends_with : prog → list answer_to → bool → Prop :=
| ew_end ok : ends_with (PEnd ok) [] ok
| ew_get name edge k r h ok : ends_with (k r) h ok → ends_with (PGet name edge k) (AGet name edge r :: h) ok
| ew_dest a k d h ok : ends_with (k d) h ok → ends_with (PDest a k) (ADest a d :: h) ok.
