(** * Vocabulary for C12 and C13 *)
From Verif Require Export IRBuild_Model.
From Coq Require Export Sorted.

(** The nodes that outside calls were made for, in order. *)
Definition built (h : list act) : list inode :=
  concat (map (λ a, match a with ABuild _ _ ns => ns | ADir _ => [] | AGen n _ => [n] end) h).

(** The registry after a history of registrations. *)
Definition registered (regs : list (nat * bytes)) : registry := fold_left register regs ∅.
(** [bname] is the builder registered last for type [t]. *)
Definition last_registered (regs : list (nat * bytes)) (t : nat) (bname : bytes) : Prop :=
  ∃ l1 l2, regs = l1 ++ (t, bname) :: l2 ∧ ∀ b, (t, b) ∉ l2.

(** Some registered type matches the node. *)
Definition has_builder (assignable : nat → nat → bool) (r : registry) (n : inode) : Prop :=
  ∃ t b, r !! t = Some b ∧ assignable (in_type n) t = true.

(** [whole] is [l] and [r] shuffled together: nothing lost, nothing added, both in their order. *)
Inductive shuffle {A} : list A → list A → list A → Prop :=
  | shuffle_nil : shuffle [] [] []
  | shuffle_l x l r w : shuffle l r w → shuffle (x :: l) r (x :: w)
  | shuffle_r x l r w : shuffle l r w → shuffle l (x :: r) (x :: w).

(** A place in a tree: which child to follow at each level. *)
Fixpoint at_place {A} (t : irtree A) (p : list nat) : option A :=
  match p with
  | [] => Some (label t)
  | i :: p' => match kids t !! i with Some k => at_place k p' | None => None end
  end.

(** A place comes before another one if it is above it or, where they part, in an earlier child. *)
Inductive before : list nat → list nat → Prop :=
  | before_above i p : before [] (i :: p)
  | before_left i j p q : i < j → before (i :: p) (j :: q)
  | before_down i p q : before p q → before (i :: p) (i :: q).
