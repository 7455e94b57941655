(** * Specification vocabulary for the client pool *)
From Verif Require Import Pool_Model.

(** The clients in the hands of a goroutine (taken out of the pool, or on the way back into it). *)
Definition in_hand (ph : pphase) : list nat :=
  match ph with
  | PGot c | PGotW c | PLeaveW (Some c) | PHold c | PPushing c => [c]
  | _ => []
  end.
(** All clients that exist: idle in the pool or in some goroutine's hands. *)
Definition all_clients (p : pool) : list nat := p_chan p ++ flat_map in_hand (p_threads p).

Definition is_building (ph : pphase) : bool := match ph with PBuilding => true | _ => false end.
Definition building (p : pool) : nat := length (List.filter is_building (p_threads p)).

Definition outside (ph : pphase) : Prop := match ph with PIdle | PHold _ => True | _ => False end.
(** No goroutine is inside Pop or Push. *)
Definition quiescent (p : pool) : Prop := ∀ ph, ph ∈ p_threads p → outside ph.

(** The build function returned an error. *)
Definition build_failure (m : pmove) : bool := match m with MBuild _ false => true | _ => false end.
