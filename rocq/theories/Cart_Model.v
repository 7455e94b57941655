(** * Model of the SockShop cart service: examples/sockshop/workflow/cart/cartservice.go

    Every method is a program that makes database operations one after the other; between two of them, other
    calls of the service may run.

    Simplifications: quantities are unbounded integers; a price is the bit pattern of a float32.  A database
    operation takes effect at once, on the documents of the collection in insertion order, the way
    runtime/plugins/simplenosqldb/nosqldb.go does it for the filter {"id": customer} (C20-C23); it may fail,
    before or after it took effect. *)
From stdpp Require Export strings gmap list numbers.
Set Default Proof Using "Type".
Open Scope list_scope.

(** cartservice.go:49-53. *)
Record item := Item { it_id : string; it_qty : Z; it_price : N }.
Global Instance item_dec : EqDecision item. Proof. solve_decision. Defined.
(** cartservice.go:42-45. *)
Record cart := Cart { ct_id : string; ct_items : list item }.
Global Instance cart_dec : EqDecision cart. Proof. solve_decision. Defined.
Notation db := (list cart).

(** ** The collection *)
(** nosqldb.go:133-153 *)
Fixpoint find_one (c : string) (l : db) : option cart :=
  match l with
  | [] => None
  | d :: r => if String.eqb (ct_id d) c then Some d else find_one c r end.
(** nosqldb.go:308-319; [None]: nothing matched *)
Fixpoint replace_one (c : string) (d : cart) (l : db) : option db :=
  match l with
  | [] => None
  | x :: r => if String.eqb (ct_id x) c then Some (d :: r) else cons x <$> replace_one c d r end.
(** nosqldb.go:291-297 *)
Definition upsert (c : string) (d : cart) (l : db) : db :=
  match replace_one c d l with Some l' => l' | None => l ++ [d] end.
(** nosqldb.go:187-199 *)
Fixpoint delete_one (c : string) (l : db) : db :=
  match l with
  | [] => []
  | x :: r => if String.eqb (ct_id x) c then r else x :: delete_one c r end.
(** nosqldb.go:201-222 *)
Definition delete_many (c : string) (l : db) : db := filter (λ x, ct_id x ≠ c) l.

Inductive dbop :=
| FindOne (c : string)
| Upsert (c : string) (d : cart)
| ReplaceOne (c : string) (d : cart)
| DeleteOne (c : string)
| DeleteMany (c : string).
Inductive dbres := DErr | DCart (o : option cart) | DDone.
Definition exec (o : dbop) (l : db) : db * dbres :=
  match o with
  | FindOne c => (l, DCart (find_one c l))
  | Upsert c d => (upsert c d l, DDone)
  | ReplaceOne c d => (default l (replace_one c d l), DDone)
  | DeleteOne c => (delete_one c l, DDone)
  | DeleteMany c => (delete_many c l, DDone) end.
(** What can happen to an operation: nothing unusual, it is refused, or its answer is lost. *)
Inductive fault := Fine | Refused | AnswerLost.
Definition exec_f (f : fault) (o : dbop) (l : db) : db * dbres :=
  match f with
  | Fine => exec o l
  | Refused => (l, DErr)
  | AnswerLost => ((exec o l).1, DErr) end.

(** ** The methods *)
Inductive reply := RErr | RItems (l : list item) | RItem (i : item) | ROk.
Global Instance reply_dec : EqDecision reply. Proof. solve_decision. Defined.
Inductive prog := Ret (r : reply) | Do (o : dbop) (k : dbres → prog).

(** cartservice.go:205-214; without a document the cart is empty *)
Definition get_cart (c : string) (k : list item → prog) : prog :=
  Do (FindOne c) (λ r, match r with
    | DCart (Some d) => k (ct_items d)
    | DCart None => k []
    | _ => Ret RErr end).
(** A last operation, whose error is returned. *)
Definition finish (o : dbop) (rep : reply) : prog :=
  Do o (λ r, match r with DErr => Ret RErr | _ => Ret rep end).

(** cartservice.go:216-226 *)
Fixpoint find_item (i : string) (l : list item) : option item :=
  match l with
  | [] => None
  | x :: r => if String.eqb (it_id x) i then Some x else find_item i r end.
(** An assignment through the pointer that findItem returned. *)
Fixpoint set_item (i : string) (f : item → item) (l : list item) : list item :=
  match l with
  | [] => []
  | x :: r => if String.eqb (it_id x) i then f x :: r else x :: set_item i f r end.
(** cartservice.go:228-238 *)
Definition remove_item (i : string) (l : list item) : list item := filter (λ x, it_id x ≠ i) l.

Definition plus_qty (q : Z) (x : item) : item := Item (it_id x) (it_qty x + q) (it_price x).
Definition set_price (p : N) (x : item) : item := Item (it_id x) (it_qty x) p.

(** cartservice.go:68-83 *)
Definition p_add (c : string) (i : item) : prog :=
  get_cart c (λ l,
    let '(l', i') := match find_item (it_id i) l with
      | Some x => (set_item (it_id i) (plus_qty (it_qty i)) l, plus_qty (it_qty i) x)
      | None => (l ++ [i], i) end in
    finish (Upsert c (Cart c l')) (RItem i')).
(** cartservice.go:86-88 *)
Definition p_delete (c : string) : prog := finish (DeleteMany c) ROk.
(** cartservice.go:91-97 *)
Definition p_get (c : string) : prog := get_cart c (λ l, Ret (RItems l)).
(** cartservice.go:100-108 *)
Definition p_item (c i : string) : prog :=
  get_cart c (λ l, Ret (RItem (default (Item "" 0 0) (find_item i l)))).

(** cartservice.go:128-140.  [customerCartItems] points into the array that customerCart.Items has at first,
    [old]; an append to that slice, which has no room (BSON decoding allocates exactly as much as it needs),
    moves the items to another array, and what is then assigned through the pointers is no longer seen.
    [cur] is that other array.  For an id that occurs twice, the map has the last. *)
Definition last_with (i : string) (l : list item) (f : item → item) : list item :=
  reverse (set_item i f (reverse l)).
Fixpoint merge_loop (session old : list item) (cur : option (list item)) : list item :=
  match session with
  | [] => default old cur
  | x :: r =>
      match find_item (it_id x) old with
      | Some _ => merge_loop r (last_with (it_id x) old (λ y, set_price (it_price x) (plus_qty (it_qty x) y))) cur
      | None => merge_loop r old (Some (default old cur ++ [x])) end end.
(** cartservice.go:111-149 *)
Definition p_merge (c s : string) : prog :=
  get_cart s (λ ls, get_cart c (λ lc,
    match ls with
    | [] => Ret ROk
    | _ => Do (Upsert c (Cart c (merge_loop ls lc None))) (λ r,
             match r with DErr => Ret RErr | _ => finish (DeleteOne s) ROk end) end)).
(** cartservice.go:152-168 *)
Definition p_remove (c i : string) : prog :=
  get_cart c (λ l,
    match find_item i l with
    | None => Ret ROk
    | Some _ => match remove_item i l with
                | [] => p_delete c
                | l' => finish (ReplaceOne c (Cart c l')) ROk end end).
(** cartservice.go:171-203 *)
Definition p_update (c : string) (i : item) : prog :=
  get_cart c (λ l,
    match find_item (it_id i) l with
    | Some _ =>
        let l1 := set_item (it_id i) (λ x, Item (it_id x) (it_qty i) (it_price i)) l in
        let l2 := if decide (it_qty i <= 0)%Z then remove_item (it_id i) l1 else l1 in
        match l2 with [] => p_delete c | _ => finish (Upsert c (Cart c l2)) ROk end
    | None =>
        if decide (it_qty i <= 0)%Z then Ret ROk else finish (Upsert c (Cart c (l ++ [i]))) ROk end).

(** The interface, cartservice.go:13-38. *)
Inductive call :=
| GetCart (c : string)
| DeleteCart (c : string)
| MergeCarts (c s : string)
| GetItem (c i : string)
| AddItem (c : string) (i : item)
| RemoveItem (c i : string)
| UpdateItem (c : string) (i : item).
Definition prog_of (a : call) : prog :=
  match a with
  | GetCart c => p_get c
  | DeleteCart c => p_delete c
  | MergeCarts c s => p_merge c s
  | GetItem c i => p_item c i
  | AddItem c i => p_add c i
  | RemoveItem c i => p_remove c i
  | UpdateItem c i => p_update c i end.

(** ** Running *)
(** A call on its own, without faults. *)
Fixpoint run (p : prog) (l : db) : db * reply :=
  match p with
  | Ret r => (l, r)
  | Do o k => let '(l', r) := exec o l in run (k r) l' end.
Fixpoint run_calls (cs : list call) (l : db) : db * list reply :=
  match cs with
  | [] => (l, [])
  | a :: cs' => let '(l1, r) := run (prog_of a) l in
                let '(l2, rs) := run_calls cs' l1 in (l2, r :: rs) end.

(** Several calls at the same time: the calls started so far, in order, with what is left of each. *)
Record system := System { sy_db : db; sy_calls : list (call * prog) }.
Inductive event :=
| Start (a : call)                     (* a new call comes in *)
| Step (t : nat) (f : fault).          (* call number [t] makes its next database operation *)
Definition sys_step (e : event) (y : system) : option system :=
  match e with
  | Start a => Some (System (sy_db y) (sy_calls y ++ [(a, prog_of a)]))
  | Step t f =>
      match sy_calls y !! t with
      | Some (a, Do o k) =>
          let '(l, r) := exec_f f o (sy_db y) in
          Some (System l (<[t := (a, k r)]> (sy_calls y)))
      | _ => None end end.
Fixpoint sys_run (es : list event) (y : system) : option system :=
  match es with
  | [] => Some y
  | e :: r => match sys_step e y with Some y' => sys_run r y' | None => None end end.
Definition init : system := System [] [].
