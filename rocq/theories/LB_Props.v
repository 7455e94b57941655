(** * Properties of the round-robin load balancer (C36) *)
From Verif Require Import LB_Model LB_Spec LB_Proof.

(** C36. For every non-empty list of clients and every sequence of requests (in the order in which
    they obtain the balancer's lock, from any threads), every request is served and the j-th one goes
    to client j mod N. *)
Theorem C36_round_robin :
  ∀ (C : Type) (clients : list C) (reqs : list nat),
    clients ≠ [] →
    ∃ b l, serve (new_balancer clients) reqs = Some (b, l) ∧ l.*1 = reqs ∧
      ∀ j, j < length reqs → l.*2 !! j = clients !! (j mod length clients).
Proof. intros *. apply serve_new. Qed.
Print Assumptions C36_round_robin.

(** With N distinct clients, after k requests each has served between floor(k/N) and ceil(k/N). *)
Theorem C36_fair :
  ∀ (C : Type) (H : EqDecision C) (clients : list C) (reqs : list nat) b l c,
    NoDup clients → c ∈ clients → serve (new_balancer clients) reqs = Some (b, l) →
    length reqs / length clients ≤ served c l ≤ (length reqs + length clients - 1) / length clients.
Proof. intros *. apply served_fair. Qed.
Print Assumptions C36_fair.

(** Any N consecutive requests go to N distinct clients. *)
Theorem C36_consecutive_distinct :
  ∀ (C : Type) (clients : list C) (reqs : list nat) b l s j j',
    NoDup clients → serve (new_balancer clients) reqs = Some (b, l) →
    j < length clients → j' < length clients → s + j < length reqs → s + j' < length reqs →
    l.*2 !! (s + j) = l.*2 !! (s + j') → j = j'.
Proof. intros *. apply window_clients. Qed.
Print Assumptions C36_consecutive_distinct.

Example C36_nonvacuous :
  option_map snd (serve (new_balancer [10; 20; 30]) [0; 0; 1; 2; 1; 0; 3]) =
    Some [(0, 10); (0, 20); (1, 30); (2, 10); (1, 20); (0, 30); (3, 10)].
Proof. by vm_compute. Qed.

(** A balancer over no clients panics on the first request. *)
Theorem C36_no_clients_refuted : ∀ (C : Type) t reqs, serve (@new_balancer C []) (t :: reqs) = None.
Proof. done. Qed.
Print Assumptions C36_no_clients_refuted.
