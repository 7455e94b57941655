(** * Specification vocabulary for the load balancer *)
From Verif Require Import LB_Model.

(** Number of requests among the first [k] that go to backend [i] of [n] under perfect rotation. *)
Definition hits (n i k : nat) : nat :=
  length (List.filter (λ j, bool_decide (j mod n = i)) (seq 0 k)).

(** Number of requests that a particular client served. *)
Definition served {C} `{EqDecision C} (c : C) (l : list (nat * C)) : nat :=
  length (List.filter (λ x, bool_decide (snd x = c)) l).
