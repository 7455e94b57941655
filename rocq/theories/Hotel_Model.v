(** * Model of the reservation service of the hotel example: examples/dsb_hotel/workflow/hotelreservation/ReservationService.go

    A call is a program of cache and database calls that interleave with those of other calls.  Simplified: a date
    is a day number (day 0 is 0001-01-01) with the parser as an oracle, printed dates are taken to be injective
    (years 0 to 9999); the statistics counters and GetCollection (which does not fail in the backends modelled
    elsewhere) are left out; cache values and stored numbers are unbounded integers, added by a parameter so that
    int64 addition can be put in. *)
From stdpp Require Export strings gmap numbers list.
Set Default Proof Using "Type".
Open Scope Z_scope.

(** DataModels.go:45-51 *)
Record doc := Doc { d_hotel : string; d_customer : string; d_in : Z; d_out : Z; d_rooms : Z }.
(** ReservationService.go:115, 137: hotelId + "_" + date + "_" + date, with one and the same date, and
    hotelId + "_cap".  The suffixes have different last characters and a fixed length each, so that keys are
    equal only if hotel and date are. *)
Inductive ckey := KNight (hotel : string) (day : Z) | KCap (hotel : string).
Global Instance ckey_eq_dec : EqDecision ckey. Proof. solve_decision. Defined.
Global Instance ckey_countable : Countable ckey.
Proof.
  refine (inj_countable' (λ k, match k with KNight h d => (h, Some d) | KCap h => (h, None) end)
    (λ p, match p with (h, Some d) => KNight h d | (h, None) => KCap h end) _). by intros [].
Defined.

(** The arguments of MakeReservation (ReservationService.go:96) and CheckAvailability (:186); [c_order] is the order
    in which Go's map iteration delivers the entries of reservation_update_map (:176). *)
Record call := Call {
  c_make : bool; c_customer : string; c_hotels : list string; c_from : string; c_to : string; c_rooms : Z;
  c_order : list (ckey * Z) → list (ckey * Z) }.
(** A list of hotel ids, an error, or a panic. *)
Inductive reply := Hotels (l : list string) | Failed | Panicked.

(** Cache and database calls; every one that fails ends the call with an error (ReservationService.go:118-174). *)
Inductive prog :=
  | Ret (r : reply)
  | CGet (k : ckey) (f : option Z → prog)
  | CPut (k : ckey) (v : Z) (p : prog)
  | Find (hotel : string) (from to : Z) (f : list Z → prog)
  | FindNum (hotel : string) (f : option Z → prog)
  | Store (d : doc) (p : prog).

Section hotel.
Context (parse : string → option Z) (add : Z → Z → Z).

(** time.Parse(RFC3339, date+"T12:00:00+00:00"), with the error ignored (ReservationService.go:105-106): half days since
    0001-01-01 00:00; noon of the day, or Go's zero time if the date is not one. *)
Definition clock (s : string) : Z := match parse s with Some d => 2 * d + 1 | None => 0 end.
(** The days on which the loop body starts (ReservationService.go:108-113, 163-168): from the first day on, a day at a
    time, while before the end. *)
Definition days (from to : Z) : list Z :=
  (λ i : nat, from `div` 2 + Z.of_nat i) <$> seq 0 (Z.to_nat ((to - from + 1) `div` 2)).
(** ReservationService.go:130-132: the number of rooms in the reservations found *)
Definition sum_rooms (l : list Z) : Z := foldl add 0 l.

(** ReservationService.go:136-156, 234-257: the capacity, from the cache or else the database; 0 for an unknown hotel *)
Definition with_capacity (h : string) (k : Z → prog) : prog :=
  CGet (KCap h) (λ c, match c with
    | Some cap => k cap
    | None => FindNum h (λ n, CPut (KCap h) (default 0 n) (k (default 0 n)))
    end).
(** ReservationService.go:166-174: [day] is not advanced from night to night. *)
Fixpoint insert_all (h cust : string) (day : Z) (rooms : Z) (ns : list Z) (p : prog) : prog :=
  match ns with
  | [] => p
  | n :: ns => Store (Doc h cust day (n + 1) rooms) (insert_all h cust day rooms ns p)
  end.
(** ReservationService.go:176-181 *)
Fixpoint put_all (l : list (ckey * Z)) (p : prog) : prog :=
  match l with [] => p | (k, v) :: l => CPut k v (put_all l p) end.
(** ReservationService.go:111-161: the nights [ns], with reservation_update_map so far; then the rest *)
Fixpoint check_nights (h : string) (rooms : Z) (ns : list Z) (upd : list (ckey * Z)) (p : list (ckey * Z) → prog) : prog :=
  match ns with
  | [] => p upd
  | n :: ns =>
      let after v := with_capacity h (λ cap,
        if cap <? add v rooms then Ret (Hotels [])
        else check_nights h rooms ns (upd ++ [(KNight h (n + 1), add v rooms)]) p) in
      CGet (KNight h (n + 1)) (λ c, match c with
        | Some v => after v
        | None => Find h n (n + 1) (λ l, after (sum_rooms l))
        end)
  end.
(** ReservationService.go:96-184 *)
Definition make (c : call) : prog :=
  match c_hotels c with
  | [] => Ret Panicked
  | h :: _ =>
      let ns := days (clock (c_from c)) (clock (c_to c)) in
      check_nights h (c_rooms c) ns [] (λ upd,
        insert_all h (c_customer c) (clock (c_from c) `div` 2) (c_rooms c) ns
          (put_all (c_order c upd) (Ret (Hotels [h]))))
  end.
(** ReservationService.go:203-265: one hotel; [p] goes on with whether it was added.  [last] is whether the clock stops
    exactly at the end (:262). *)
Fixpoint check_hotel (h : string) (rooms : Z) (last : bool) (ns : list Z) (p : bool → prog) : prog :=
  match ns with
  | [] => p false
  | n :: ns =>
      let after v := with_capacity h (λ cap,
        if cap <? add v rooms then p false
        else match ns with [] => p last | _ => check_hotel h rooms last ns p end) in
      CGet (KNight h (n + 1)) (λ c, match c with
        | Some v => after v
        | None => Find h n (n + 1) (λ l, CPut (KNight h (n + 1)) (sum_rooms l) (after (sum_rooms l)))
        end)
  end.
(** ReservationService.go:198-268 *)
Fixpoint check_hotels (rooms : Z) (last : bool) (ns : list Z) (hs : list string) (acc : list string) : prog :=
  match hs with
  | [] => Ret (Hotels acc)
  | h :: hs => check_hotel h rooms last ns (λ b, check_hotels rooms last ns hs (if b : bool then acc ++ [h] else acc))
  end.
(** ReservationService.go:186-269 *)
Definition check (c : call) : prog :=
  check_hotels (c_rooms c) (Z.even (clock (c_to c) - clock (c_from c)))
    (days (clock (c_from c)) (clock (c_to c))) (c_hotels c) [].
Definition program (c : call) : prog := if c_make c then make c else check c.

(** ** Running calls *)

(** The cache, the collections "reservation" and "number", and the calls so far: still running, answered, or
    cut off by a crash of the service. *)
Inductive thread := Running (p : prog) | Done (r : reply) | Gone.
Record world := World { w_cache : gmap ckey Z; w_docs : list doc; w_nums : list (string * Z); w_calls : list (call * thread) }.
(** How a cache or database call goes: as it should; refused; done, but with the answer lost; or, for reading a list, the
    cursor fails and the error is ignored (res.All, res.One: ReservationService.go:129, 150, 222, 249). *)
Inductive fate := Fine | Refused | Lost | Cut.
Inductive event :=
  | Start (c : call)
  | Step (t : nat) (f : fate)
  | Evict (k : ckey)
  | Restart.
(** ReservationService.go:27-85: what the constructor inserts, at every start of the service *)
Context (init_docs : list doc) (init_nums : list (string * Z)).

Definition found (w : world) (h : string) (from to : Z) : list Z :=
  d_rooms <$> filter (λ d, d_hotel d = h ∧ d_in d = from ∧ d_out d = to) (w_docs w).
Definition number (w : world) (h : string) : option Z := snd <$> head (filter (λ p : string * Z, p.1 = h) (w_nums w)).

(** One cache or database call of a program: what is left of it, and its effect. *)
Definition exec (p : prog) (f : fate) (w : world) : prog * world :=
  let cut {A} (x : A) (empty : A) := match f with Cut => empty | _ => x end in
  match p with
  | Ret r => (Ret r, w)
  | CGet k g => (g (w_cache w !! k), w)
  | CPut k v p => (p, World (<[k := v]> (w_cache w)) (w_docs w) (w_nums w) (w_calls w))
  | Find h i o g => (g (cut (found w h i o) []), w)
  | FindNum h g => (g (cut (number w h) None), w)
  | Store d p => (p, World (w_cache w) (w_docs w ++ [d]) (w_nums w) (w_calls w))
  end.
Definition settle (p : prog) : thread := match p with Ret r => Done r | _ => Running p end.
Definition set_calls (w : world) (cs : list (call * thread)) : world := World (w_cache w) (w_docs w) (w_nums w) cs.
Definition step (e : event) (w : world) : option world :=
  match e with
  | Start c => Some (set_calls w (w_calls w ++ [(c, settle (program c))]))
  | Step t f =>
      match w_calls w !! t with
      | Some (c, Running p) =>
          let '(p', w') := exec p f w in
          Some match f with
               | Refused => set_calls w (<[t := (c, Done Failed)]> (w_calls w))
               | Lost => set_calls w' (<[t := (c, Done Failed)]> (w_calls w))
               | _ => set_calls w' (<[t := (c, settle p')]> (w_calls w))
               end
      | _ => None
      end
  | Evict k => Some (World (delete k (w_cache w)) (w_docs w) (w_nums w) (w_calls w))
  | Restart =>
      Some (World (w_cache w) (w_docs w ++ init_docs) (w_nums w ++ init_nums)
              ((λ x : call * thread, (x.1, match x.2 with Running _ => Gone | s => s end)) <$> w_calls w))
  end.
(** ReservationService.go:87-94: the first start of the service, on empty backends *)
Definition started : world := World ∅ init_docs init_nums [].

(** A call alone, with nothing failing *)
Fixpoint run_prog (p : prog) (s : gmap ckey Z * list doc) (nums : list (string * Z)) : reply * (gmap ckey Z * list doc) :=
  let w := World s.1 s.2 nums [] in
  match p with
  | Ret r => (r, s)
  | CGet k g => run_prog (g (s.1 !! k)) s nums
  | CPut k v p => run_prog p (<[k := v]> s.1, s.2) nums
  | Find h i o g => run_prog (g (found w h i o)) s nums
  | FindNum h g => run_prog (g (number w h)) s nums
  | Store d p => run_prog p (s.1, s.2 ++ [d]) nums
  end.
Definition run_calls (cs : list call) : list reply * (gmap ckey Z * list doc) :=
  foldl (λ st c, let '(r, s) := run_prog (program c) st.2 init_nums in (st.1 ++ [r], s)) ([], (∅, init_docs)) cs.
End hotel.
