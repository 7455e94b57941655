(** * Model of the rates and profiles of the hotel example: examples/dsb_hotel/workflow/hotelreservation/RateService.go, ProfileService.go and SearchService.go

    A call is a sequence of cache and database calls, which interleave with those of other calls.  Simplified: a document is the id of its hotel and a
    text for the rest; GetCollection does not fail; the dates and the locale, which the code does not look at, are left out. *)
From stdpp Require Export numbers strings gmap.
From stdpp Require Export list.
Set Default Proof Using "Type".

(** The two services, each with its cache and its collection *)
Inductive kind := Rate | Profile.
Global Instance kind_dec : EqDecision kind.
Proof. solve_decision. Defined.
Global Instance kind_countable : Countable kind.
Proof. refine (inj_countable' (λ k, match k with Rate => true | Profile => false end) (λ b, if b then Rate else Profile) _). by intros []. Defined.
(** DataModels.go: RatePlan and HotelProfile *)
Definition item : Type := string * string.
(** The zero value of HotelProfile *)
Definition no_item : item := ("", "")%string.
(** What the calls answer *)
Inductive reply := Got (l : list item) | Failed.
(** RateService.go:129, ProfileService.go:173 *)
Inductive op := Get (k : kind) (ids : list string).
(** What Get of the cache answers *)
Inductive res := Hit (v : list item) | Miss | Err.
(** The calls to cache and database *)
Inductive prog :=
  | Ret (r : reply)
  | CGet (k : kind) (i : string) (f : res → prog)
  | DFind (k : kind) (i : string) (f : list item → prog)
  | CPut (k : kind) (i : string) (v : list item) (p : prog).

(** The value of the variable when nothing is decoded into it: RateService.go:133, ProfileService.go:177 *)
Definition unread (k : kind) : list item := match k with Rate => [] | Profile => [no_item] end.
(** RateService.go:143-148: all documents of the hotel; ProfileService.go:188-193: the first, if there is one, which is not looked at *)
Definition found (k : kind) (i : string) (db : list item) : list item :=
  match k with
  | Rate => filter (λ x, x.1 = i) db
  | Profile => match filter (λ x, x.1 = i) db with x :: _ => [x] | [] => unread Profile end
  end.
(** RateService.go:129-155, ProfileService.go:173-200 *)
Fixpoint get (k : kind) (ids : list string) (acc : list item) : prog :=
  match ids with
  | [] => Ret (Got acc)
  | i :: ids => CGet k i (λ r, match r with Err => Ret Failed | Hit v => get k ids (acc ++ v) | Miss => DFind k i (λ v, CPut k i v (get k ids (acc ++ v))) end)
  end.
(** RateService.go:130, ProfileService.go:174 *)
Definition program (o : op) : prog := match o with Get k ids => get k ids [] end.
(** SearchService.go:31-38: the hotels near by that have rates *)
Definition search (rates : list item) : list string := rates.*1.

(** ** Running *)
(** A call that runs, has answered or was killed *)
Inductive thread := Running (p : prog) | Done (r : reply) | Gone.
(** The collections, the caches, the calls *)
Record world := World { w_db : kind → list item; w_cache : gmap (kind * string) (list item); w_calls : list (op * thread) }.
(** A cache or database call works, or is refused, or works with the answer lost; or a query works of which the result cannot be read *)
Inductive chance := Works | Refuses | Loses | Unread.
(** [Load]: documents are inserted, such as by the start of an instance (RateService.go:23-118, ProfileService.go:23-162).  The cache can drop entries. *)
Inductive event := Load (k : kind) (l : list item) | Start (o : op) | Step (t : nat) (f : chance) | Kill (t : nat) | Evict (k : kind) (i : string).
(** Calls end with their return *)
Definition settle (p : prog) : thread := match p with Ret r => Done r | _ => Running p end.
(** What one call to the cache or the database does; the errors of RateService.go:135, 145 and ProfileService.go:179, 190 end the call; those of
    RateService.go:148, 149 and ProfileService.go:193, 194 are ignored. *)
Definition act (p : prog) (f : chance) (db : kind → list item) (c : gmap (kind * string) (list item)) : gmap (kind * string) (list item) * prog :=
  match p with
  | Ret r => (c, Ret r)
  | CGet k i g => (c, g (match f with Works => match c !! (k, i) with Some v => Hit v | None => Miss end | _ => Err end))
  | DFind k i g => (c, match f with Works => g (found k i (db k)) | Unread => g (unread k) | _ => Ret Failed end)
  | CPut k i v p => (match f with Works | Loses => <[(k, i) := v]> c | _ => c end, p)
  end.
(** Calls interleave at the calls to cache and database. *)
Definition step (e : event) (w : world) : option world :=
  match e with
  | Load k l => Some (World (λ k', if decide (k' = k) then w_db w k' ++ l else w_db w k') (w_cache w) (w_calls w))
  | Start o => Some (World (w_db w) (w_cache w) (w_calls w ++ [(o, settle (program o))]))
  | Step t f =>
      match w_calls w !! t with
      | Some (o, Running p) => let '(c, p) := act p f (w_db w) (w_cache w) in Some (World (w_db w) c (<[t := (o, settle p)]> (w_calls w)))
      | _ => None
      end
  | Kill t =>
      match w_calls w !! t with
      | Some (o, Running _) => Some (World (w_db w) (w_cache w) (<[t := (o, Gone)]> (w_calls w)))
      | _ => None
      end
  | Evict k i => Some (World (w_db w) (delete (k, i) (w_cache w)) (w_calls w))
  end.
(** RateService.go:121-127, ProfileService.go:165-171, before the documents are inserted *)
Definition started : world := World (λ _, []) ∅ [].
