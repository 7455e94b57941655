(** * What the social graph should do *)
From Verif Require Export SocialGraph_Model.
From stdpp Require Export list.
Open Scope Z_scope.

(** The cache entries and, with them, the part of the graph that a call is about *)
Definition uses (o : op) : list ckey :=
  match o with
  | AddUser u => [Fers u; Fees u]
  | GetFers u => [Fers u]
  | GetFees u => [Fees u]
  | Follow u v | Unfollow u v => [Fees u; Fers v]
  end.
Definition users (o : op) : list Z :=
  match o with AddUser u | GetFers u | GetFees u => [u] | Follow u v | Unfollow u v => [u; v] end.

(** ** The graph after calls that were answered in the order [l] *)
Definition follower_step (u : Z) (acc : list Z) (o : op) : list Z :=
  match o with
  | Follow a b => if decide (b = u) then acc ++ [a] else acc
  | Unfollow a b => if decide (b = u) then filter (.≠ a) acc else acc
  | _ => acc
  end.
Definition followee_step (u : Z) (acc : list Z) (o : op) : list Z :=
  match o with
  | Follow a b => if decide (a = u) then acc ++ [b] else acc
  | Unfollow a b => if decide (a = u) then filter (.≠ b) acc else acc
  | _ => acc
  end.
Definition followers (l : list op) (u : Z) : list Z := foldl (follower_step u) [] l.
Definition followees (l : list op) (u : Z) : list Z := foldl (followee_step u) [] l.
(** A user was inserted, or was the target (or the origin) of a Follow or Unfollow *)
Definition known_target (l : list op) (u : Z) : Prop := ∃ o, o ∈ l ∧ (o = AddUser u ∨ ∃ a, o = Follow a u ∨ o = Unfollow a u).
Definition known_origin (l : list op) (u : Z) : Prop := ∃ o, o ∈ l ∧ (o = AddUser u ∨ ∃ b, o = Follow u b ∨ o = Unfollow u b).
(** What the database should have about a user: nothing before they are inserted, then the changes from then on *)
Definition stored (f : list Z → op → list Z) (l : list op) (u : Z) : option (list Z) :=
  foldl (λ x o, match o with
    | AddUser a => if decide (a = u) then Some (default [] x) else x
    | _ => (λ acc, f acc o) <$> x
    end) None l.
(** The right answer to a call *)
Definition right (l : list op) (o : op) (r : reply) : Prop :=
  match o with
  | GetFers u => (known_target l u ∧ r = Ids (followers l u)) ∨ (¬ known_target l u ∧ r = Failed)
  | GetFees u => (known_origin l u ∧ r = Ids (followees l u)) ∨ (¬ known_origin l u ∧ r = Failed)
  | _ => r = Ok
  end.

(** ** Histories *)
Definition is_running (s : thread) : Prop := match s with Running _ => True | _ => False end.
(** A call starts while no other call about the same part of the graph is being made. *)
Definition exclusive (w : world) (e : event) : Prop :=
  match e with Start o => ∀ o' s, (o', s) ∈ w_calls w → is_running s → uses o ## uses o' | _ => True end.
Definition works (e : event) : Prop := match e with Step _ _ f => f = Fine | Evict _ => False | Start _ => True end.
(** User ids that float64 can represent *)
Definition small (e : event) : Prop := match e with Start o => ∀ u, u ∈ users o → Z.abs u ≤ 2 ^ 53 | _ => True end.

(** The call that an event completes, with its answer *)
Definition answered (e : event) (w : world) : list (op * reply) :=
  match e with
  | Step t _ _ => match w_calls w !! t with Some (o, Done r) => [(o, r)] | _ => [] end
  | _ => []
  end.
(** Histories from the empty state, with [P] for each event where it happens, and the calls answered *)
Inductive history (P : world → event → Prop) : list event → world → list (op * reply) → Prop :=
  | h_nil : history P [] started []
  | h_snoc es e w w' log : history P es w log → P w e → step e w = Some w' →
      history P (es ++ [e]) w' (log ++ answered e w').

(** How the cache and database calls of goroutine [g] of call [t] went, in order *)
Definition fates (t g : nat) (es : list event) : list fate :=
  omap (λ e, match e with Step t' g' f => if decide (t' = t ∧ g' = g) then Some f else None | _ => None end) es.
