(** * What the post storage should do *)
From Verif Require Export Posts_Model.
From stdpp Require Export list.
Open Scope Z_scope.

Inductive run : world → list event → world → Prop :=
  | run_nil w : run w [] w
  | run_snoc w es w1 e w2 : run w es w1 → step e w1 = Some w2 → run w (es ++ [e]) w2.
Definition history : list event → world → Prop := run started.
(** Call [t] has got the answer *)
Definition answered (w : world) (t : nat) (o : op) (r : reply) : Prop := w_calls w !! t = Some (o, Done r).
(** The call was made, whatever became of it *)
Definition called (w : world) (o : op) : Prop := ∃ t th, w_calls w !! t = Some (o, th).
(** A history [es1], in which the call is the next to start, and its continuation [es2] *)
Definition around (es1 : list event) (w1 : world) (o : op) (es2 : list event) (w2 : world) : Prop :=
  history es1 w1 ∧ ∃ w1', step (Start o) w1 = Some w1' ∧ run w1' es2 w2.
(** No id is given to two calls *)
Definition own_ids (w : world) : Prop := ∀ t1 t2 p1 p2 th1 th2,
  w_calls w !! t1 = Some (StorePost p1, th1) → w_calls w !! t2 = Some (StorePost p2, th2) → p1.1 = p2.1 → t1 = t2.
(** Ids that queries can hold *)
Definition exact (i : Z) : Prop := Z.abs i ≤ 2 ^ 53.
