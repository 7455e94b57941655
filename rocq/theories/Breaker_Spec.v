(** * What a circuit breaker should do, in terms of the calls made, their outcomes and their times *)
From Verif Require Export Breaker_Model.
Open Scope Z_scope.

(** What happened to one call, in order. *)
Definition of_call (i : nat) (x : Z * obs) : bool :=
  match x.2 with
  | Called j | Invoked j | Returned j _ | Replied j _ => bool_decide (i = j) end.
Definition history (i : nat) (l : list (Z * obs)) : list obs := (filter (λ x, of_call i x = true) l).*2.

(** Calls of the service that ended with an error, and the others, in a stretch of the log. *)
Definition failed (x : Z * obs) : bool := match x.2 with Returned _ (Failure _) => true | _ => false end.
Definition ended (x : Z * obs) : bool := match x.2 with Returned _ _ => true | _ => false end.
Definition count (f : Z * obs → bool) (l : list (Z * obs)) : Z := Z.of_nat (length (filter (λ x, f x = true) l)).

(** At least [min] calls ended, and at least the given fraction of them failed. *)
Definition too_many (min : Z) (rate : Q) (w : list (Z * obs)) : Prop :=
  min ≤ count ended w ∧ (rate * inject_Z (count ended w) <= inject_Z (count failed w))%Q.

Definition invoked (x : Z * obs) : Prop := match x.2 with Invoked _ => True | _ => False end.
Definition rejected (x : Z * obs) : Prop := match x.2 with Replied _ ErrOpen => True | _ => False end.

(** Executions: the log of everything that happened in some order of events. *)
Definition logs (C : conf) (l : list (Z * obs)) : Prop := ∃ es s, run C (start C) es = Some s ∧ s_log s = l.
(** Backoffs and the reset interval are positive, lateness is not negative. *)
Definition sensible (C : conf) : Prop :=
  (∀ k, 0 < b_backoff C k) ∧ (∀ d, b_interval C = Some d → 0 < d) ∧ 0 ≤ b_late C ∧ (0 < b_probes C)%nat.
