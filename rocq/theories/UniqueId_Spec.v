(** * What one expects of unique ids *)
From Verif Require Export UniqueId_Model.
From stdpp Require Export list.
Open Scope Z_scope.

(** Times with eleven hexadecimal digits: from November 2004 to 2527. *)
Definition era (t : Z) : Prop := 16 ^ 10 ≤ t < 16 ^ 11.
(** The time before that *)
Definition early (t : Z) : Prop := 0 ≤ t < 16 ^ 10.
(** A machine id: 16 bits *)
Definition machine (m : Z) : Prop := 0 ≤ m < 2 ^ 16.

(** How many calls immediately before call [i] saw the same time *)
Definition repeats (ts : list Z) (i n : nat) : Prop :=
  (n ≤ i)%nat ∧ (∀ k : nat, (i - n ≤ k ≤ i)%nat → ts !! k = ts !! i) ∧
  (n < i → ts !! (i - n - 1)%nat ≠ ts !! i)%nat.
(** The first hexadecimal digit of [n] *)
Definition first_digit (n d : Z) : Prop :=
  0 ≤ n ∧ (n = 0 ∧ d = 0 ∨ 1 ≤ d < 16 ∧ ∃ k, 0 ≤ k ∧ d * 16 ^ k ≤ n < (d + 1) * 16 ^ k).

(** Call [i] of a service on machine [m] sees time [t], is the [n+1]-st in a row to do so, and gets the id [x]. *)
Definition gets (m : Z) (ts : list Z) (i : nat) (t : Z) (n : nat) (x : Z) : Prop :=
  ts !! i = Some t ∧ repeats ts i n ∧ ids m ts !! i = Some (Some x).

(** Hardware addresses *)
Definition address (l : list Z) : Prop := Forall (λ b, 0 ≤ b < 256) l.
(** An interface whose address was not assigned by its maker, as those of containers *)
Definition local_address (i : netif) : Prop := match n_addr i with b :: _ => Z.testbit b 1 = true | [] => True end.
