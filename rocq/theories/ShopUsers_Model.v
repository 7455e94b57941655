(** * Model of the user service of the sock shop example: examples/sockshop/workflow/user/{userservice,userdb,cardsdb,addressesdb}.go

    A call is a sequence of database calls, which interleave with those of other calls.  Simplified: of a card only the number and of an address
    only a text is kept, names and email of users are left out; Register is PostUser without cards and addresses; listing calls (GetUsers, GetCards,
    GetAddresses) are left out; the salt is part of the call and the hash a parameter; the database does what MongoDB documents.  Object ids:
    primitive.NewObjectID never gives the same twice, so an id is the call that made it and the how manieth of that call it is. *)
From stdpp Require Export strings gmap.
From stdpp Require Export list.
Set Default Proof Using "Type".

Definition oid : Type := nat * nat.
Inductive kind := Cards | Addrs.
Global Instance kind_eq_dec : EqDecision kind.
Proof. solve_decision. Defined.
(** An id as a caller gives it: none, not a hex string (ObjectIDFromHex fails), or an id *)
Inductive given := Nobody | Bad | Id (i : oid).
(** userdb.go:20-25: as stored *)
Record user := User { u_name : string; u_hash : string; u_salt : string; u_refs : kind → list oid }.

(** The account in the answer of Login: id, card numbers and addresses *)
Inductive reply := Ok | Found (id : oid) (cards addrs : list string) | Failed | Panic.
Inductive prog :=
  | Ret (r : reply)
  | InsItem (k : kind) (i : oid) (x : string) (p : prog)
  | InsUser (i : oid) (d : user) (p failed : prog)
  | DelItems (k : kind) (is : list oid) (ignore : bool) (p : prog)
  | DelUser (i : oid) (p : prog)
  | AddRef (k : kind) (u i : oid) (p : prog)
  | PullRef (k : kind) (i : oid) (p : prog)
  | FindName (n : string) (f : option (oid * user) → prog)
  | FindUser (i : oid) (f : option user → prog)
  | FindItems (k : kind) (is : list oid) (f : list string → prog) (failed : prog).
Inductive op :=
  | PostUser (name pwd salt : string) (cards addrs : list string)
  | Login (name pwd : string)
  | Post (k : kind) (u : given) (x : string)
  | DeleteItem (k : kind) (i : given)
  | DeleteUser (i : given).

(** strings.Repeat, userservice.go:260 *)
Fixpoint stars (n : nat) : string := match n with 0 => "" | S n => String (Ascii.ascii_of_nat 42) (stars n) end.
(** userservice.go:258-261: the number with all but the last four characters hidden.  None: strings.Repeat panics on a negative count *)
Definition hide (s : string) : option string :=
  if (String.length s <? 4)%nat then None
  else Some (stars (String.length s - 4) +:+ String.substring (String.length s - 4) 4 s).
Definition mask_all (l : list string) : option (list string) := mapM hide l.

Section shop.
  Context (hash : string → string). (* userservice.go:263-268, of salt and password *)

  (** cardsdb.go:112-130, addressesdb.go:112-130: the [n]-th id of call [t] for the first of them *)
  Fixpoint create_items (t : nat) (k : kind) (n : nat) (l : list string) (p : prog) : prog :=
    match l with [] => p | x :: l => InsItem k (t, n) x (create_items t k (S n) l p) end.
  Definition ids_from (t n : nat) (l : list string) : list oid := (λ j, (t, (n + j)%nat)) <$> seq 0 (length l).
  (** userservice.go:137-151, 162-167, userdb.go:53-78: the cards, the addresses, then the user; if that fails they are removed again *)
  Definition post_user (t : nat) (name pwd salt : string) (cards addrs : list string) : prog :=
    let card_ids := ids_from t 1 cards in
    let addr_ids := ids_from t (S (length cards)) addrs in
    create_items t Cards 1 cards (create_items t Addrs (S (length cards)) addrs
      (InsUser (t, 0) (User name (hash (salt +:+ pwd)) salt (λ k, match k with Cards => card_ids | Addrs => addr_ids end)) (Ret Ok)
        (DelItems Addrs addr_ids true (DelItems Cards card_ids true (Ret Failed))))).
  (** cardsdb.go:49-76, addressesdb.go:49-76: no call of the database for no ids *)
  Definition get_items (k : kind) (is : list oid) (f : list string → prog) (failed : prog) : prog :=
    match is with [] => f [] | _ :: _ => FindItems k is f failed end.
  (** userservice.go:132-134 after an error of getUserAttributes: the cards of the user still have no number (userdb.go:306-316) *)
  Definition login_failed (cards : list oid) : prog := match mask_all ((λ _, "") <$> cards) with None => Ret Panic | Some _ => Ret Failed end.
  (** userdb.go:155-164, then userservice.go:133-134, 229-233 *)
  Definition login_cards (i : oid) (d : user) (addrs : list string) : prog :=
    get_items Cards (u_refs d Cards) (λ cards, match mask_all cards with None => Ret Panic | Some cs => Ret (Found i cs addrs) end)
      (login_failed (u_refs d Cards)).
  (** userdb.go:148-153 *)
  Definition login_addrs (i : oid) (d : user) : prog :=
    get_items Addrs (u_refs d Addrs) (login_cards i d) (login_failed (u_refs d Cards)).
  (** userservice.go:119-135, userdb.go:81-97, 306-316.  An unknown name leaves a blank user, whose id (all zeros) is here (0, 0) *)
  Definition login (name pwd : string) : prog :=
    FindName name (λ r,
      match r with
      | None => if bool_decide ("" = hash ("" +:+ pwd)) then Ret (Found (0, 0)%nat [] []) else Ret Failed
      | Some (i, d) => if bool_decide (u_hash d = hash (u_salt d +:+ pwd)) then login_addrs i d else Ret Failed
      end).
  (** userservice.go:178-181, 192-195, userdb.go:168-219, cardsdb.go:98-109, addressesdb.go:98-109: how many users the update changed is not looked at *)
  Definition post (t : nat) (k : kind) (u : given) (x : string) : prog :=
    match u with
    | Nobody => InsItem k (t, 0) x (Ret Ok)
    | Bad => Ret Failed
    | Id u => InsItem k (t, 0) x (AddRef k u (t, 0) (Ret Ok))
    end.
  (** userservice.go:197-199, userdb.go:221-232, 269-301, cardsdb.go:132-144, addressesdb.go:132-143 *)
  Definition delete_item (k : kind) (i : given) : prog :=
    match i with Id i => PullRef k i (DelItems k [i] false (Ret Ok)) | _ => Ret Failed end.
  (** userdb.go:100-122, 234-267; a user that is not found is blank *)
  Definition delete_user (i : given) : prog :=
    match i with
    | Id i => FindUser i (λ d,
        let refs k := match d with Some d => u_refs d k | None => [] end in
        DelItems Addrs (refs Addrs) false (DelItems Cards (refs Cards) false (DelUser i (Ret Ok))))
    | _ => Ret Failed
    end.
  Definition program (t : nat) (o : op) : prog :=
    match o with
    | PostUser n p s cs ads => post_user t n p s cs ads
    | Login n p => login n p
    | Post k u x => post t k u x
    | DeleteItem k i => delete_item k i
    | DeleteUser i => delete_user i
    end.
End shop.

(** ** Running *)
Inductive thread := Running (p : prog) | Done (r : reply) | Gone.
Record world := World { w_users : list (oid * user); w_items : kind → list (oid * string); w_calls : list (op * thread) }.
(** A call of the database works, is refused, or is carried out with the answer lost. *)
Inductive fate := Fine | Refused | Lost.
Inductive event := Start (o : op) | Step (t : nat) (f : fate) | Kill (t : nat).
Definition fine (f : fate) : bool := match f with Fine => true | _ => false end.
Definition done_by (f : fate) : bool := match f with Refused => false | _ => true end.
Definition settle (p : prog) : thread := match p with Ret r => Done r | _ => Running p end.

(** ** The database, for the calls in userdb.go:67, 83, 108, 190, 217, 266, 299, cardsdb.go:61, 101, 122, 143 and the same lines of addressesdb.go, except
    142 for 143.  Ids are fresh, so UpsertID inserts *)
Definition db : Type := list (oid * user) * (kind → list (oid * string)).
Definition on_kind (s : kind → list (oid * string)) (k : kind) (f : list (oid * string) → list (oid * string)) : kind → list (oid * string) :=
  λ k', if decide (k' = k) then f (s k') else s k'.
Definition on_refs (d : user) (k : kind) (f : list oid → list oid) : user :=
  User (u_name d) (u_hash d) (u_salt d) (λ k', if decide (k' = k) then f (u_refs d k') else u_refs d k').
Definition add_to_set (i : oid) (l : list oid) : list oid := if decide (i ∈ l) then l else l ++ [i].
Definition without (is : list oid) (l : list (oid * string)) : list (oid * string) := filter (λ x, x.1 ∉ is) l.
Definition write (p : prog) (s : db) : db :=
  let '(us, its) := s in
  match p with
  | InsItem k i x _ => (us, on_kind its k (λ l, l ++ [(i, x)]))
  | InsUser i d _ _ => (us ++ [(i, d)], its)
  | DelItems k is _ _ => (us, on_kind its k (without is))
  | DelUser i _ => (filter (λ x, x.1 ≠ i) us, its)
  | AddRef k u i _ => ((λ x, if decide (x.1 = u) then (x.1, on_refs x.2 k (add_to_set i)) else x) <$> us, its)
  | PullRef k i _ => ((λ x, (x.1, on_refs x.2 k (filter (λ j, j ≠ i)))) <$> us, its)
  | _ => s
  end.
Definition find_name (us : list (oid * user)) (n : string) : option (oid * user) := head (filter (λ x, u_name x.2 = n) us).
Definition find_user (us : list (oid * user)) (i : oid) : option user := snd <$> head (filter (λ x, x.1 = i) us).
Definition find_items (l : list (oid * string)) (is : list oid) : list string := (filter (λ x, x.1 ∈ is) l).*2.
(** What the call goes on with *)
Definition next (p : prog) (f : bool) (s : db) : prog :=
  match p with
  | Ret r => Ret r
  | InsItem _ _ _ p | DelUser _ p | AddRef _ _ _ p | PullRef _ _ p => if f then p else Ret Failed
  | InsUser _ _ p q => if f then p else q
  | DelItems _ _ ignore p => if f || ignore then p else Ret Failed
  | FindName n g => if f then g (find_name s.1 n) else Ret Failed
  | FindUser i g => if f then g (find_user s.1 i) else Ret Failed
  | FindItems k is g q => if f then g (find_items (s.2 k) is) else q
  end.
Definition step (hash : string → string) (e : event) (w : world) : option world :=
  match e with
  | Start o => Some (World (w_users w) (w_items w) (w_calls w ++ [(o, settle (program hash (length (w_calls w)) o))]))
  | Step t f =>
      match w_calls w !! t with
      | Some (o, Running p) =>
          let s := (w_users w, w_items w) in
          let s' := if done_by f then write p s else s in
          Some (World s'.1 s'.2 (<[t := (o, settle (next p (fine f) s))]> (w_calls w)))
      | _ => None
      end
  | Kill t =>
      match w_calls w !! t with
      | Some (o, Running _) => Some (World (w_users w) (w_items w) (<[t := (o, Gone)]> (w_calls w)))
      | _ => None
      end
  end.
Definition started : world := World [] (λ _, []) [].
