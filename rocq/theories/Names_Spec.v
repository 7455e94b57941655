(** * Specification vocabulary for names and indentation *)
From Verif Require Import Names_Model.

(** The bytes an identifier may contain after cleaning. *)
Definition legal (c : ascii) : bool :=
  is_lower c || is_upper c || is_digit c || is_space c || bool_decide (c = underscore).

(** No two adjacent underscores. *)
Fixpoint no_double (s : bytes) : Prop :=
  match s with
  | a :: r => match r with b :: _ => ¬ (a = underscore ∧ b = underscore) | [] => True end ∧ no_double r
  | [] => True
  end.

Definition digit_free_start (s : bytes) : Prop := ∀ c r, s = c :: r → is_digit c = false.

Definition str (s : string) : bytes := list_ascii_of_string s.

(** [l'] is [l] moved so that [cur] columns of indentation become [amount]. *)
Definition shifted (cur amount : nat) (l l' : bytes) : Prop :=
  ∃ rest, l = replicate cur space ++ rest ∧ l' = replicate amount space ++ rest.
