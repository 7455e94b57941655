(** * What the composition of posts should do *)
From Verif Require Export NewPost_Model.
From stdpp Require Export list.
Open Scope Z_scope.

Inductive run : world → list event → world → Prop :=
  | run_nil w : run w [] w
  | run_snoc w es w1 e w2 : run w es w1 → step e w1 = Some w2 → run w (es ++ [e]) w2.
Definition history : list event → world → Prop := run started.
Definition answered (w : world) (t : nat) (a : args) (r : reply) : Prop := w_calls w !! t = Some (a, Done r).
(** The post says what the call was given, and what the text service and the id service answered to it *)
Definition made_from (es : list event) (t : nat) (a : args) (p : post) : Prop :=
  Prepared t (Some (p_text p, p_mentions p, p_urls p)) (Some (p_id p)) ∈ es ∧
  p_creator p = (a_user a, a_name a) ∧ p_req p = a_req a ∧ p_kind p = a_kind a ∧ (p_medias p).*1 = a_ids a ∧ (p_medias p).*2 = a_types a.
(** The ids that were given out *)
Definition given (es : list event) : list Z := omap (λ e, match e with Prepared _ _ i => i | _ => None end) es.
