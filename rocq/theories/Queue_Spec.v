(** * Specification vocabulary for the queue *)
From Verif Require Import Queue_Model.

(** Items accepted by Push and items delivered by Pop, in order. *)
Definition pushed_items (l : list qout) : list gval := omap (λ o, match o with Pushed _ x => Some x | _ => None end) l.
Definition popped_items (l : list qout) : list gval := omap (λ o, match o with Popped _ x _ => Some x | _ => None end) l.
(** Items that a consumer actually received. *)
Definition received (l : list qout) : list gval :=
  omap (λ o, match o with Popped _ _ (COk w) => Some w | _ => None end) l.
