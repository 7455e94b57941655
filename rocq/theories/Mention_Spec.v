(** * What should become of mentions *)
From Verif Require Export Mention_Model.
From stdpp Require Export list.
Open Scope Z_scope.

Inductive run : world → list event → world → Prop :=
  | run_nil w : run w [] w
  | run_snoc w es w1 e w2 : run w es w1 → step e w1 = Some w2 → run w (es ++ [e]) w2.
Definition history : list event → world → Prop := run started.
(** Call [t] has got the answer *)
Definition answered (w : world) (t : nat) (o : op) (r : reply) : Prop := w_calls w !! t = Some (o, Done r).
(** A history [es1], in which the call is the next to start, and its continuation [es2] *)
Definition around (es1 : list event) (w1 : world) (o : op) (es2 : list event) (w2 : world) : Prop :=
  history es1 w1 ∧ ∃ w1', step (Start o) w1 = Some w1' ∧ run w1' es2 w2.
(** The users registered in a history, in order *)
Definition joined (es : list event) : list user := omap (λ e, match e with Register u => Some u | _ => None end) es.
(** The characters of names *)
Definition name_characters : text := txt "abcdefghijklmnopqrstuvwxyzABCDEFGHIJKLMNOPQRSTUVWXYZ0123456789-_".
(** The text mentions the name: it is what follows an @, as far as it goes *)
Definition mentioned (s n : text) : Prop :=
  ∃ a b, s = a ++ at_sign :: n ++ b ∧ n ≠ [] ∧ Forall (λ c, word c = true) n ∧ ∀ c, head b = Some c → word c = false.
(** No event lets the call down: the backends work for it, and it is not killed *)
Definition kind_to (t : nat) (es : list event) : Prop := Forall (λ e, match e with Step t' f => t' = t → f = Works | Kill t' => t' ≠ t | _ => True end) es.
