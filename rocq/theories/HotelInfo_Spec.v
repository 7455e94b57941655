(** * What rates and profiles should be *)
From Verif Require Export HotelInfo_Model.
From stdpp Require Export list.

Inductive run : world → list event → world → Prop :=
  | run_nil w : run w [] w
  | run_snoc w es w1 e w2 : run w es w1 → step e w1 = Some w2 → run w (es ++ [e]) w2.
Definition history : list event → world → Prop := run started.
(** Call [t] has got the answer *)
Definition answered (w : world) (t : nat) (o : op) (r : reply) : Prop := w_calls w !! t = Some (o, Done r).
(** Inserted in a history *)
Definition inserted (es : list event) (k : kind) (x : item) : Prop := ∃ l, Load k l ∈ es ∧ x ∈ l.
(** What there is about a hotel: all its rates in their order, or its first profile, or an empty one *)
Definition right (k : kind) (data : list item) (i : string) (v : list item) : Prop :=
  match k with
  | Rate => v = filter (λ x, x.1 = i) data
  | Profile => (∃ x l1 l2, v = [x] ∧ data = l1 ++ x :: l2 ∧ x.1 = i ∧ ∀ y, y ∈ l1 → y.1 ≠ i) ∨ v = [no_item] ∧ ∀ y, y ∈ data → y.1 ≠ i
  end.
(** The documents are inserted first, and only then; all results can be read *)
Definition calm (k : kind) (data : list item) (es : list event) : Prop :=
  ∃ es', es = Load k data :: es' ∧ Forall (λ e, match e with Load k' _ => k' ≠ k | Step _ f => f ≠ Unread | _ => True end) es'.
