(** * Specification: happened-before *)
From Verif Require Export GoVec_Model.
Set Default Proof Using "Type".

(** Entry [i] directly precedes entry [j]: an earlier entry of the same process, or the sending of what [j] received *)
Definition edge (l : list entry) (i j : nat) : Prop :=
  ∃ a b, l !! i = Some a ∧ l !! j = Some b ∧ i < j ∧
    (e_proc a = e_proc b ∨
     (∃ k, e_what a = WSend k ∧ e_what b = WServe k) ∨
     (∃ k, e_what a = WReply k ∧ e_what b = WReturn k)).
(** Lamport's happened-before *)
Definition before (l : list entry) : nat → nat → Prop := tc (edge l).

(** The order of vector clocks *)
Definition clock_lt (c d : clock) : Prop := (∀ p, at_ c p ≤ at_ d p) ∧ ∃ p, at_ c p < at_ d p.

(** The processes that are started *)
Definition starts (ms : list gmove) : list string := omap (λ m, match m with GStart p => Some p | _ => None end) ms.
