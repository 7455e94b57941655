(** * What the sock shop's user service should do *)
From Verif Require Export ShopUsers_Model.
From stdpp Require Export list.

Inductive run (hash : string → string) (P : world → event → Prop) : world → list event → world → Prop :=
  | run_nil w : run hash P w [] w
  | run_snoc w es w1 e w2 : run hash P w es w1 → P w1 e → step hash e w1 = Some w2 → run hash P w (es ++ [e]) w2.
Definition history (hash : string → string) : list event → world → Prop := run hash (λ _ _, True) started.

(** Card or address [x] was given for the user [u]: when the user was made, or later *)
Definition given_for (w : world) (k : kind) (u : oid) (x : string) : Prop :=
  (∃ n p s cs ads th, w_calls w !! u.1 = Some (PostUser n p s cs ads, th) ∧ x ∈ match k with Cards => cs | Addrs => ads end) ∨
  (∃ th, (Post k (Id u) x, th) ∈ w_calls w).
(** A masked number: as long, only the last four characters to be seen *)
Definition masks (m s : string) : Prop :=
  (4 ≤ String.length s)%nat ∧ String.length m = String.length s ∧
  ∀ j, (j < String.length s)%nat → String.get j m = if decide (j + 4 < String.length s)%nat then Some (Ascii.ascii_of_nat 42) else String.get j s.
(** The user is stored, and lists the thing; the thing is stored *)
Definition has_user (w : world) (u : oid) : Prop := ∃ d, (u, d) ∈ w_users w.
Definition lists (w : world) (k : kind) (u i : oid) : Prop := ∃ d, (u, d) ∈ w_users w ∧ i ∈ u_refs d k.
Definition stored (w : world) (k : kind) (i : oid) : Prop := ∃ x, (i, x) ∈ w_items w k.
(** The call is over *)
Definition over (w : world) (t : nat) : Prop := ∃ o th, w_calls w !! t = Some (o, th) ∧ ∀ p, th ≠ Running p.
(** What is known about the hash *)
Definition good_hash (hash : string → string) : Prop := (∀ x, hash x ≠ "") ∧ ∀ x y, hash x = hash y → x = y.
(** Nothing is deleted, and the answer to the insertion of a user is never lost (its cards would be removed again) *)
Definition keeps (w : world) (e : event) : Prop :=
  match e with
  | Start (DeleteItem _ _) | Start (DeleteUser _) => False
  | Step t Lost => ∀ o i d p q, w_calls w !! t ≠ Some (o, Running (InsUser i d p q))
  | _ => True
  end.
