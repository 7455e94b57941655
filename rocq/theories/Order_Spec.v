(** * What placing and shipping orders should do *)
From Verif Require Export Order_Model.

Section order.
Context (E : env).
(** The worlds a history of events leads to, starting with [n] queue masters. *)
Definition reaches (n : nat) (es : list event) (w : world) : Prop := run_world E es (opening n) = Some w.

(** [P] was true at some moment after call number [t] had come in. *)
Definition during (n : nat) (es : list event) (t : nat) (P : world → Prop) : Prop :=
  ∃ es1 es2 w1, es = es1 ++ es2 ∧ reaches n es1 w1 ∧ t < length (w_calls w1) ∧ P w1.

(** An order as it should be: asked for by call [t], for what was in the cart at some moment during the call, paid. *)
Definition proper_order (n : nat) (es : list event) (w : world) (o : purchase) : Prop :=
  ∃ g, fst <$> w_calls w !! od_id o = Some g ∧
    ar_customer g ≠ "" ∧ ar_address g ≠ "" ∧ ar_card g ≠ "" ∧ ar_cart g ≠ "" ∧
    od_customer o = ar_customer g ∧ od_items o ≠ [] ∧
    during n es (od_id o) (λ w', cart_of w' (ar_cart g) = od_items o) ∧
    during n es (od_id o) (λ w', look E (w_addresses w') (ar_address g) = Some (od_address o)) ∧
    during n es (od_id o) (λ w', look E (w_cards w') (ar_card g) = Some (od_card o)) ∧
    od_total o = total_price E (od_items o) ∧ authorise E (od_total o) = Some true ∧
    od_shipment o = Shipment (od_id o) (od_customer o) "awaiting shipment".

(** Waiting to be shipped: in the queue, or in the hands of a queue master. *)
Definition waiting (w : world) (i : nat) : Prop :=
  (∃ x, x ∈ w_queue w ∧ sh_id x = i) ∨ ∃ x, Some x ∈ w_masters w ∧ sh_id x = i.
Definition recorded (w : world) (i : nat) : Prop := ∃ x, x ∈ w_shipments w ∧ sh_id x = i.
Definition shipped (w : world) (i : nat) : Prop := ∃ x, x ∈ w_shipments w ∧ sh_id x = i ∧ sh_status x = "shipped".
Definition all_shipped (w : world) : Prop := ∀ x, x ∈ w_shipments w → sh_status x = "shipped".

(** How much is left to do for the queue masters. *)
Definition holding (w : world) : nat := length (filter (λ m, m ≠ None) (w_masters w)).
Definition left_to_do (w : world) : nat := 2 * length (w_queue w) + holding w.
(** A step of a queue master in which nothing fails. *)
Definition master_works (e : event) : Prop := match e with Pop _ Fine | Ship _ Fine => True | _ => False end.
End order.

Definition is_answer_lost (e : event) : Prop :=
  match e with Step _ AnswerLost | Pop _ AnswerLost | Ship _ AnswerLost => True | _ => False end.
Definition pop_lost (e : event) : Prop := match e with Pop _ AnswerLost => True | _ => False end.
