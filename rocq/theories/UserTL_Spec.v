(** * What the user timelines should be *)
From Verif Require Export UserTL_Model.
From stdpp Require Export list.
Open Scope Z_scope.

(** Histories between two worlds, with [P] for each event where it happens *)
Inductive run (P : world → event → Prop) : world → list event → world → Prop :=
  | run_nil w : run P w [] w
  | run_snoc w es w1 e w2 : run P w es w1 → P w1 e → step e w1 = Some w2 → run P w (es ++ [e]) w2.
Definition history : list event → world → Prop := run (λ _ _, True) started.
(** Call [t] has got the answer *)
Definition answered (w : world) (t : nat) (o : op) (r : reply) : Prop := w_calls w !! t = Some (o, Done r).
(** The call was made, whatever became of it *)
Definition called (w : world) (o : op) : Prop := ∃ t th, w_calls w !! t = Some (o, th).
(** Numbers that queries can hold *)
Definition exact (i : Z) : Prop := Z.abs i ≤ 2 ^ 53.
Definition exact_op (o : op) : Prop := match o with Write p u s => exact p ∧ exact u ∧ exact s | Read u a b => exact u ∧ exact b end.
Definition user (o : op) : Z := match o with Write _ u _ => u | Read u _ _ => u end.
Definition is_write (o : op) : Prop := match o with Write _ _ _ => True | _ => False end.
(** A call about [u] is running *)
Definition busy (w : world) (u : Z) : Prop := ∃ t o p, w_calls w !! t = Some (o, Running p) ∧ user o = u.
Definition writing (w : world) (u : Z) : Prop := ∃ t o p, w_calls w !! t = Some (o, Running p) ∧ user o = u ∧ is_write o.
(** The posts that are written for [u], and those of which this is acknowledged, in order of the calls *)
Definition tried (u : Z) (w : world) : list post :=
  omap (λ c : op * thread, match c.1 with Write p u' s => if decide (u' = u) then Some (p, s) else None | _ => None end) (w_calls w).
Definition acknowledged (u : Z) (w : world) : list post :=
  omap (λ c : op * thread, match c with (Write p u' s, Done Ok) => if decide (u' = u) then Some (p, s) else None | _ => None end) (w_calls w).
(** The posts of the writes for [u] among these calls, in order *)
Definition posts_of (u : Z) (os : list op) : list Z :=
  omap (λ o : op, match o with Write p u' _ => if decide (u' = u) then Some p else None | _ => None end) os.
(** Writes for one user one after the other; reading a cursor does not fail *)
Definition finds (w : world) (t : nat) : Prop := ∃ o u g, w_calls w !! t = Some (o, Running (DFind u g)).
Definition one_writer (w : world) (e : event) : Prop :=
  match e with
  | Start o => exact_op o ∧ (is_write o → ¬ writing w (user o))
  | Step t Lost => ¬ finds w t
  | _ => True
  end.
(** Calls about one user one after the other, and nothing fails *)
Definition calm (w : world) (e : event) : Prop :=
  match e with
  | Start o => exact_op o ∧ ¬ busy w (user o)
  | Step _ f => f = Fine
  | Kill _ | Evict _ => False
  end.
(** What the cache has of [u] is a list of ids only *)
Definition broken (w : world) (u : Z) : Prop := ∃ l, w_cache w !! u = Some (IdList l).
