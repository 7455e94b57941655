(** * Model of SockShop's orders: examples/sockshop/workflow/{order,payment,shipping,queuemaster}

    NewOrder calls other services; every such call is one step here, so that several NewOrder calls, customers who
    change their carts, and the queue masters can interleave.  Any of these calls may be refused, or take effect
    and lose its answer; a crashed call is one that makes no further step.

    Simplifications: a fresh uuid is the number of the call (random identifiers do not collide); float32
    arithmetic is given by [env]; prices are bit patterns; users, addresses and cards are opaque numbers, 0 being
    the blank value; dates are left out; a cart is the list GetCart answers (C74, C75). *)
From Verif Require Export Cart_Model.

(** What the model takes from outside. *)
Record env := Env {
  e_hex : string → bool;                 (* primitive.ObjectIDFromHex succeeds *)
  e_add : N → N → N; e_mul : N → N → N;  (* float32 *)
  e_int : Z → N;                         (* float32(int) *)
  e_zero_or_less : N → bool;             (* amount == 0 or amount < 0 *)
  e_le : N → N → bool;                   (* <= *)
  e_limit : N;                           (* declineOverAmount *)
  e_modified : bool }.                   (* UpdateOne counts modified (mongodb) or matched (simplenosqldb) documents *)

(** shippingservice.go:32-36 *)
Record shipment := Shipment { sh_id : nat; sh_name : string; sh_status : string }.
(** orderservice.go:39-49; Customer is never filled in *)
Record purchase := Order {
  od_id : nat; od_customer : string; od_address : N; od_card : N; od_items : list item; od_shipment : shipment;
  od_total : N }.
Global Instance shipment_dec : EqDecision shipment. Proof. solve_decision. Defined.
Global Instance order_dec : EqDecision purchase. Proof. solve_decision. Defined.
(** The arguments of NewOrder, orderservice.go:29. *)
Record args := Args { ar_customer : string; ar_address : string; ar_card : string; ar_cart : string }.
Global Instance args_dec : EqDecision args. Proof. solve_decision. Defined.

Inductive reply := Failed | Placed (o : purchase) (err : bool).
Global Instance reply_dec : EqDecision reply. Proof. solve_decision. Defined.

(** Where a NewOrder call is. *)
Inductive stage :=
| Fetching (i : option (option (list item))) (u a c : option (option N))
    (* orderservice.go:132-147: the four goroutines; [Some None] is an error *)
| Paying (l : list item) (a c : N)
| Pushing (l : list item) (a c : N)
| Recording (l : list item) (a c : N)
| Saving (l : list item) (a c : N)
| Clearing (o : purchase)
| Done (r : reply).

Record world := World {
  w_carts : gmap string (list item);
  w_users : gmap string N; w_addresses : gmap string N; w_cards : gmap string N;
  w_queue : list shipment;              (* the shipping queue *)
  w_shipments : list shipment;          (* the collection shipments *)
  w_orders : list purchase;                (* the collection orders *)
  w_masters : list (option shipment);   (* the queue masters, and what each has popped *)
  w_calls : list (args * stage) }.

Definition set_calls (cs : list (args * stage)) (w : world) : world :=
  World (w_carts w) (w_users w) (w_addresses w) (w_cards w) (w_queue w) (w_shipments w) (w_orders w) (w_masters w) cs.
Definition set_carts m w :=
  World m (w_users w) (w_addresses w) (w_cards w) (w_queue w) (w_shipments w) (w_orders w) (w_masters w) (w_calls w).
Definition set_queue q w :=
  World (w_carts w) (w_users w) (w_addresses w) (w_cards w) q (w_shipments w) (w_orders w) (w_masters w) (w_calls w).
Definition set_shipments s w :=
  World (w_carts w) (w_users w) (w_addresses w) (w_cards w) (w_queue w) s (w_orders w) (w_masters w) (w_calls w).
Definition set_orders o w :=
  World (w_carts w) (w_users w) (w_addresses w) (w_cards w) (w_queue w) (w_shipments w) o (w_masters w) (w_calls w).
Definition set_masters m w :=
  World (w_carts w) (w_users w) (w_addresses w) (w_cards w) (w_queue w) (w_shipments w) (w_orders w) m (w_calls w).

Section order.
Context (E : env).

(** orderservice.go:205-213; 1084206612 is float32(4.99) *)
Definition total_price (l : list item) : N :=
  e_add E (foldl (λ acc x, e_add E acc (e_mul E (e_int E (it_qty x)) (it_price x))) 0%N l) 1084206612%N.
(** paymentservice.go:45-62: [None] is an error *)
Definition authorise (amount : N) : option bool :=
  if e_zero_or_less E amount then None else if e_le E amount (e_limit E) then Some true else Some false.
(** Whether NewOrder goes on, orderservice.go:166-172. *)
Definition authorised (amount : N) : bool :=
  match authorise amount with Some true => true | _ => false end.

(** userdb.go:100-122, addressesdb.go:28-46, cardsdb.go (the same): a list of one entry, blank if there is none. *)
Definition look (tbl : gmap string N) (id : string) : option N :=
  if e_hex E id then Some (default 0%N (tbl !! id)) else None.
(** cartservice.go:91-97 *)
Definition cart_of (w : world) (c : string) : list item := default [] (w_carts w !! c).

(** orderservice.go:150-163, when all four have answered; the lists of users, addresses and cards have one entry. *)
Definition joined (s : stage) : stage :=
  match s with
  | Fetching (Some i) (Some u) (Some a) (Some c) =>
      match i, u, a, c with
      | Some (x :: r), Some _, Some a', Some c' => Paying (x :: r) a' c'
      | _, _, _, _ => Done Failed end
  | _ => s end.
(** orderservice.go:111-130 *)
Definition begin (g : args) : stage :=
  if bool_decide (ar_customer g = "" ∨ ar_address g = "" ∨ ar_card g = "" ∨ ar_cart g = "")
  then Done Failed else Fetching None None None None.
(** orderservice.go:175-179 *)
Definition new_shipment (t : nat) (g : args) : shipment := Shipment t (ar_customer g) "awaiting shipment".
(** orderservice.go:186-195 *)
Definition new_order (t : nat) (g : args) (l : list item) (a c : N) : purchase :=
  Order t (ar_customer g) a c l (new_shipment t g) (total_price l).

Definition put (t : nat) (g : args) (s : stage) (w : world) : world := set_calls (<[t := (g, s)]> (w_calls w)) w.
(** One of the four goroutines gets its answer. *)
Definition fetch (w : world) (g : args) (n : nat) (f : fault) (s : stage) : option stage :=
  let ans {A} (x : option A) := match f with Fine => x | _ => None end in
  match s, n with
  | Fetching None u a c, 0 => Some (joined (Fetching (Some (ans (Some (cart_of w (ar_cart g))))) u a c))
  | Fetching i None a c, 1 => Some (joined (Fetching i (Some (ans (look (w_users w) (ar_customer g)))) a c))
  | Fetching i u None c, 2 => Some (joined (Fetching i u (Some (ans (look (w_addresses w) (ar_address g)))) c))
  | Fetching i u a None, 3 => Some (joined (Fetching i u a (Some (ans (look (w_cards w) (ar_card g))))))
  | _, _ => None end.
(** The effect of an operation under a fault, and where the call is then. *)
Definition under (f : fault) (eff : world → world) (ok fail lost : stage) (t : nat) (g : args) (w : world) : world :=
  match f with
  | Fine => put t g ok (eff w)
  | Refused => put t g fail w
  | AnswerLost => put t g lost (eff w) end.
(** orderservice.go:165-202, shippingservice.go:53-64 *)
Definition call_step (t : nat) (g : args) (s : stage) (f : fault) (w : world) : option world :=
  match s with
  | Paying l a c =>
      Some (under f id (if authorised (total_price l) then Pushing l a c else Done Failed) (Done Failed) (Done Failed) t g w)
  | Pushing l a c =>
      Some (under f (λ w, set_queue (w_queue w ++ [new_shipment t g]) w) (Recording l a c) (Done Failed) (Done Failed) t g w)
  | Recording l a c =>
      Some (under f (λ w, set_shipments (w_shipments w ++ [new_shipment t g]) w) (Saving l a c) (Done Failed) (Done Failed) t g w)
  | Saving l a c =>
      let o := new_order t g l a c in
      Some (under f (λ w, set_orders (w_orders w ++ [o]) w) (Clearing o) (Done Failed) (Done Failed) t g w)
  | Clearing o =>
      Some (under f (λ w, set_carts (delete (ar_customer g) (w_carts w)) w)
              (Done (Placed o false)) (Done (Placed o true)) (Done (Placed o true)) t g w)
  | Fetching _ _ _ _ | Done _ => None end.

(** shippingservice.go:83-91: set the status of the first shipment with the id; how many documents UpdateOne
    counts.  runtime/plugins/simplenosqldb/nosqldb.go:238-250, runtime/plugins/mongodb/nosqldb.go:140 *)
Fixpoint update_status (i : nat) (st : string) (l : list shipment) : list shipment * nat :=
  match l with
  | [] => ([], 0)
  | x :: r =>
      if Nat.eqb (sh_id x) i
      then (Shipment (sh_id x) (sh_name x) st :: r,
            if e_modified E && String.eqb (sh_status x) st then 0 else 1)
      else let '(r', n) := update_status i st r in (x :: r', n) end.
(** queuemaster.go:59: pop; a lost answer loses the message *)
Definition pop (m : nat) (f : fault) (w : world) : option world :=
  match w_masters w !! m, w_queue w with
  | Some None, x :: q =>
      Some (match f with
            | Fine => set_masters (<[m := Some x]> (w_masters w)) (set_queue q w)
            | Refused => w
            | AnswerLost => set_queue q w end)
  | _, _ => None end.
(** queuemaster.go:73-85: an error means another attempt *)
Definition ship (m : nat) (f : fault) (w : world) : option world :=
  match w_masters w !! m with
  | Some (Some x) =>
      let '(l, n) := update_status (sh_id x) "shipped" (w_shipments w) in
      Some (match f with
            | Fine => set_masters (if Nat.eqb n 0 then w_masters w else <[m := None]> (w_masters w)) (set_shipments l w)
            | Refused => w
            | AnswerLost => set_shipments l w end)
  | _ => None end.

(** ** Everything together *)
Inductive event :=
| Start (g : args)                       (* a NewOrder call *)
| Fetch (t n : nat) (f : fault)          (* its n-th goroutine finishes *)
| Step (t : nat) (f : fault)             (* its next call of another service *)
| Cart (c : string) (l : list item)      (* a customer changes their cart *)
| Accounts (u a c : gmap string N)       (* users, addresses and cards change *)
| Pop (m : nat) (f : fault)
| Ship (m : nat) (f : fault).
Definition step (e : event) (w : world) : option world :=
  match e with
  | Start g => Some (set_calls (w_calls w ++ [(g, begin g)]) w)
  | Fetch t n f =>
      match w_calls w !! t with
      | Some (g, s) => match fetch w g n f s with Some s' => Some (put t g s' w) | None => None end
      | None => None end
  | Step t f => match w_calls w !! t with Some (g, s) => call_step t g s f w | None => None end
  | Cart c l => Some (set_carts (<[c := l]> (w_carts w)) w)
  | Accounts u a c =>
      Some (World (w_carts w) u a c (w_queue w) (w_shipments w) (w_orders w) (w_masters w) (w_calls w))
  | Pop m f => pop m f w
  | Ship m f => ship m f w end.
Fixpoint run_world (es : list event) (w : world) : option world :=
  match es with
  | [] => Some w
  | e :: r => match step e w with Some w' => run_world r w' | None => None end end.
(** At first nothing is there but [n] queue masters. *)
Definition opening (n : nat) : world := World ∅ ∅ ∅ ∅ [] [] [] (replicate n None) [].
End order.
