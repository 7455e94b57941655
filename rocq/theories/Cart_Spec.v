(** * What carts should do

    A cart maps item ids to a quantity and a unit price.  [shown] is what GetCart answers. *)
From Verif Require Export Cart_Model.

Notation basket := (gmap string (Z * N)).
Definition contents (l : list item) : basket :=
  list_to_map ((λ x, (it_id x, (it_qty x, it_price x))) <$> l).
Definition ids (l : list item) : list string := it_id <$> l.
(** What a customer sees. *)
Definition shown (l : db) (c : string) : list item :=
  match (run (prog_of (GetCart c)) l).2 with RItems is => is | _ => [] end.

(** ** One call after the other *)
Definition shop := string → basket.
Definition upd (c : string) (b : basket) (σ : shop) : shop := λ c', if decide (c' = c) then b else σ c'.
Definition spec_step (a : call) (σ : shop) : shop :=
  match a with
  | GetCart _ | GetItem _ _ => σ
  | DeleteCart c => upd c ∅ σ
  | AddItem c i =>
      upd c (<[it_id i := match σ c !! it_id i with
                          | Some (q, p) => (q + it_qty i, p)%Z
                          | None => (it_qty i, it_price i) end]> (σ c)) σ
  | RemoveItem c i => upd c (delete i (σ c)) σ
  | UpdateItem c i =>
      upd c (if decide (it_qty i <= 0)%Z then delete (it_id i) (σ c)
             else <[it_id i := (it_qty i, it_price i)]> (σ c)) σ
  | MergeCarts c s =>
      upd s ∅ (upd c (union_with (λ x y, Some (x.1 + y.1, y.2)%Z) (σ c) (σ s)) σ) end.
Definition spec_reply (a : call) (σ : shop) (r : reply) : Prop :=
  match a with
  | GetCart c => ∃ l, r = RItems l ∧ NoDup (ids l) ∧ contents l = σ c
  | GetItem c i => r = RItem (match σ c !! i with Some (q, p) => Item i q p | None => Item "" 0 0 end)
  | AddItem c i => ∃ q p, r = RItem (Item (it_id i) q p) ∧ spec_step a σ c !! it_id i = Some (q, p)
  | _ => r = ROk end.
Fixpoint explains (cs : list call) (σ : shop) (rs : list reply) : Prop :=
  match cs, rs with
  | [], [] => True
  | a :: cs', r :: rs' => spec_reply a σ r ∧ explains cs' (spec_step a σ) rs'
  | _, _ => False end.

(** Carts that can be merged: not one with itself, and whatever both have is listed in the session's cart before
    what only the session has. *)
Definition orderly (l : db) (a : call) : Prop :=
  match a with
  | MergeCarts c s =>
      c ≠ s ∧ ∀ pre x mid y post, shown l s = pre ++ x :: mid ++ y :: post →
                it_id y ∈ ids (shown l c) → it_id x ∈ ids (shown l c)
  | _ => True end.
Fixpoint all_orderly (cs : list call) (l : db) : Prop :=
  match cs with
  | [] => True
  | a :: r => orderly l a ∧ all_orderly r (run (prog_of a) l).1 end.

(** ** Calls at the same time *)
Definition reachable (y : system) : Prop := ∃ es, sys_run es init = Some y.
(** Whose carts a call is about. *)
Definition customers (a : call) : list string :=
  match a with
  | GetCart c | DeleteCart c | GetItem c _ | AddItem c _ | RemoveItem c _ | UpdateItem c _ => [c]
  | MergeCarts c s => [c; s] end.
Definition running (p : prog) : bool := match p with Ret _ => false | _ => true end.
(** No call starts on a customer's cart while another one on it is running, and nothing fails. *)
Definition no_overlap (y : system) (e : event) : Prop :=
  match e with
  | Start a => ∀ t b p, sy_calls y !! t = Some (b, p) → running p = true → customers a ## customers b
  | Step _ f => f = Fine end.
Fixpoint no_overlaps (es : list event) (y : system) : Prop :=
  match es with
  | [] => True
  | e :: r => no_overlap y e ∧ ∀ y', sys_step e y = Some y' → no_overlaps r y' end.

(** ** One call under faults, which may also stop at any point *)
Fixpoint run_f (p : prog) (fs : list fault) (l : db) : db * option reply :=
  match p with
  | Ret r => (l, Some r)
  | Do o k => match fs with
              | [] => (l, None)     (* the service crashed *)
              | f :: fs' => let '(l', r) := exec_f f o l in run_f (k r) fs' l' end end.
(** The same carts, whatever the order of the documents. *)
Definition same (l l' : db) : Prop := ∀ c, shown l c = shown l' c.
