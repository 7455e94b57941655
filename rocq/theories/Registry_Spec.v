(** * Specification vocabulary for the client registry *)
From Verif Require Import Registry_Model.

Definition is_get (op : rop) : Prop := op = OGet.
Definition is_register (op : rop) : Prop := ∃ n f, op = ORegister n f.
Definition is_setdefault (op : rop) : Prop := ∃ n, op = OSetDefault n.

(** The build function most recently registered under a name. *)
Inductive latest (name : string) : list rop → nat → Prop :=
| latest_here f h : latest name (h ++ [ORegister name f]) f
| latest_later op f h : latest name h f → (∀ g, op ≠ ORegister name g) → latest name (h ++ [op]) f.
Definition never_registered (name : string) (h : list rop) : Prop := ∀ f, ORegister name f ∉ h.

(** Everything a history shows: the results of its Gets, and the build functions invoked. *)
Definition results (o : oracle) (h : list rop) : list rresult := (rhist o new_registry h).2.
Definition invoked (o : oracle) (h : list rop) : list nat := r_calls (rhist o new_registry h).1.
