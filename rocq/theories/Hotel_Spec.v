(** * What the reservation service should do *)
From Verif Require Export Hotel_Model.
From stdpp Require Export list.
Open Scope Z_scope.

Definition zsum (l : list Z) : Z := foldr Z.add 0 l.

Section spec.
Context (parse : string → option Z) (init_docs : list doc) (init_nums : list (string * Z)).

(** The nights of a stay: from the first day up to, not including, the last. *)
Definition stay (c : call) : list Z :=
  match parse (c_from c), parse (c_to c) with Some a, Some b => seqZ a (b - a) | _, _ => [] end.
(** The hotels a call is about: a reservation is made in the first hotel given. *)
Definition uses (c : call) : list string := if c_make c then take 1 (c_hotels c) else c_hotels c.

(** Rooms of a hotel with a night reserved: by the reservations the service started with and by the calls of
    MakeReservation that were answered with the hotel. *)
Definition reserves (c : call) (s : thread) (h : string) (n : Z) : Prop :=
  c_make c = true ∧ n ∈ stay c ∧ match s with Done (Hotels [h']) => h' = h | _ => False end.
Global Instance reserves_dec c s h n : Decision (reserves c s h n).
Proof. unfold reserves. destruct s as [|[[|? []]| |]|]; apply _. Defined.
Definition rooms_of (l : list doc) (h : string) (n : Z) : Z :=
  zsum ((λ d, if decide (d_hotel d = h ∧ d_in d = n ∧ d_out d = n + 1) then d_rooms d else 0) <$> l).
Definition booked (w : world) (h : string) (n : Z) : Z :=
  rooms_of init_docs h n + zsum ((λ x, if decide (reserves x.1 x.2 h n) then c_rooms x.1 else 0) <$> w_calls w).
(** The rooms of a hotel *)
Definition capacity (h : string) : Z := default 0 (number (started init_docs init_nums) h).

Definition is_running (s : thread) : Prop := match s with Running _ => True | _ => False end.
(** A call starts while no other call about the same hotel is being made. *)
Definition exclusive (w : world) (e : event) : Prop :=
  match e with
  | Start c => ∀ c' s, (c', s) ∈ w_calls w → is_running s → uses c ## uses c'
  | _ => True
  end.
(** Sensible calls: proper dates and no negative number of rooms; any order of map iteration. *)
Definition sensible (e : event) : Prop :=
  match e with
  | Start c => (c_make c = true → is_Some (parse (c_from c)) ∧ is_Some (parse (c_to c)) ∧ 0 ≤ c_rooms c) ∧
               ∀ l, c_order c l ≡ₚ l
  | Step _ f => f ≠ Cut
  | _ => True
  end.
Definition keeps_cache (e : event) : Prop := match e with Evict _ => False | _ => True end.
Definition one_night (e : event) : Prop := match e with Start c => c_make c = true → (length (stay c) ≤ 1)%nat | _ => True end.

(** Histories: events from the first start of the service on, with [P] for each where it happens. *)
Inductive history (add : Z → Z → Z) (P : world → event → Prop) : list event → world → Prop :=
  | h_nil : history add P [] (started init_docs init_nums)
  | h_snoc es e w w' : history add P es w → P w e → step parse add init_docs init_nums e w = Some w' →
      history add P (es ++ [e]) w'.

(** ** One call at a time *)

(** A hotel has room for a call if it has on every night of the stay. *)
Definition fits (b : string → Z → Z) (c : call) (h : string) : bool :=
  forallb (λ n, b h n + c_rooms c <=? capacity h) (stay c).
Definition reserve (b : string → Z → Z) (c : call) (h : string) : string → Z → Z :=
  λ h' n, if decide (h' = h ∧ n ∈ stay c) then b h' n + c_rooms c else b h' n.
(** MakeReservation reserves if there is room; CheckAvailability lists the hotels with room. *)
Definition ideal (c : call) (b : string → Z → Z) : reply * (string → Z → Z) :=
  if c_make c then
    match c_hotels c with
    | h :: _ => if fits b c h then (Hotels [h], reserve b c h) else (Hotels [], b)
    | [] => (Panicked, b)
    end
  else (Hotels (filter (λ h, stay c ≠ [] ∧ Is_true (fits b c h)) (c_hotels c)), b).
Fixpoint ideals (cs : list call) (b : string → Z → Z) : list reply * (string → Z → Z) :=
  match cs with
  | [] => ([], b)
  | c :: cs => let '(r, b) := ideal c b in let '(rs, b) := ideals cs b in (r :: rs, b)
  end.
Definition dated (c : call) : Prop := is_Some (parse (c_from c)) ∧ is_Some (parse (c_to c)) ∧ ∀ l, c_order c l ≡ₚ l.
End spec.
