(** * What the home timelines should be *)
From Verif Require Export HomeTL_Model.
From stdpp Require Export list.
Open Scope Z_scope.

(** Histories between two worlds, with [P] for each event where it happens *)
Inductive run (P : world → event → Prop) : world → list event → world → Prop :=
  | run_nil w : run P w [] w
  | run_snoc w es w1 e w2 : run P w es w1 → P w1 e → step e w1 = Some w2 → run P w (es ++ [e]) w2.
Definition history : list event → world → Prop := run (λ _ _, True) started.

(** Whose timelines the write [t] is for, and what it puts there *)
Definition for_user (es : list event) (w : world) (t : nat) (x : Z) : Prop :=
  ∃ pid uid ts ms th fs ord, w_calls w !! t = Some (Write pid uid ts ms, th) ∧ Told t fs ord ∈ es ∧ (x ∈ fs ∨ x ∈ ms).
Definition posted (w : world) (t : nat) (p : post) : Prop :=
  ∃ uid ms th, w_calls w !! t = Some (Write p.1 uid p.2 ms, th).
(** Nothing is forgotten by the cache, and no call writes a timeline while another is between reading and writing it *)
Definition writes (w : world) (t : nat) (k : Z) : Prop := ∃ o v p, w_calls w !! t = Some (o, Running (Put k v p)).
Definition tidy (w : world) (e : event) : Prop :=
  match e with
  | Step t _ => ∀ k t', writes w t k → writes w t' k → t' = t
  | Evict _ => False
  | _ => True
  end.
(** The posts from number [a] up to number [b] *)
Definition page (l : list Z) (a b : Z) : list Z := take (Z.to_nat (b - a)) (drop (Z.to_nat a) l).
(** The backends work for call [t], and it is not killed *)
Definition works_for (t : nat) (e : event) : Prop := match e with Step t' f => t' = t → f = Fine | Kill t' => t' ≠ t | _ => True end.
