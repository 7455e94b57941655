(** * Model of the post storage of the social network example: examples/dsb_sn/workflow/socialnetwork/PostStorageService.go

    A call is a sequence of cache and database calls, which interleave with those of other calls.  Simplified: a post is its id and one text for the
    other fields; GetCollection and the parsing of queries do not fail; the statistics are left out; the database finds documents in the order of
    their insertion. *)
From Verif Require Export JsonNum_Model.
From stdpp Require Export numbers strings gmap list.
Set Default Proof Using "Type".
Open Scope Z_scope.

(** DataModels.go:48-58 *)
Definition post : Type := Z * string.
(** The zero value of Post *)
Definition no_post : post := (0, ""%string).
Inductive reply := Ok | One (p : post) | Posts (l : list post) | NotFound | Failed.
Inductive op := StorePost (p : post) | ReadPost (i : Z) | ReadPosts (is : list Z).
(** What Get of the cache does to the variable *)
Inductive res := Hit (p : post) | Miss | Err.
Inductive prog :=
  | Ret (r : reply)
  | CGet (k : Z) (f : res → prog)
  | DIns (p : post) (k : prog)
  | DFindOne (i : Z) (f : option post → prog)
  | DFindIn (is : list Z) (f : list post → prog)
  | CPuts (ps : list post) (k : prog).

(** PostStorageService.go:44-50 *)
Definition store_post (p : post) : prog := DIns p (Ret Ok).
(** PostStorageService.go:53-76 *)
Definition read_post (i : Z) : prog :=
  CGet i (λ r, match r with
    | Err => Ret Failed
    | Hit p => Ret (One p)
    | Miss => DFindOne i (λ o, match o with Some p => Ret (One p) | None => Ret NotFound end)
    end).
(** PostStorageService.go:87-96: Mget, of which the error is ignored, as a Get for each key, of which any may fail; [acc] is what is in [values] so far *)
Fixpoint mget (is : list Z) (acc : list post) (k : list post → prog) : prog :=
  match is with
  | [] => k acc
  | i :: is => CGet i (λ r, mget is (acc ++ [match r with Hit p => p | _ => no_post end]) k)
  end.
(** PostStorageService.go:132-141: the goroutines that fill the cache *)
Definition fill (ps : list post) (k : prog) : prog := match ps with [] => k | _ => CPuts ps k end.
(** PostStorageService.go:97-143.  The ids left are the keys of a map; their order, which is any, does not matter to the query. *)
Definition after_mget (is : list Z) (values : list post) : prog :=
  let cached := filter (λ p, p.1 ≠ 0) values in
  let left := filter (λ i, i ∉ cached.*1) (remove_dups is) in
  match left with
  | [] => Ret (Posts cached)
  | _ => DFindIn (json_num <$> left) (λ found, fill found (Ret (Posts (cached ++ found))))
  end.
(** PostStorageService.go:79-144 *)
Definition read_posts (is : list Z) : prog := mget is [] (after_mget is).
(** PostStorageService.go:43-144: the calls *)
Definition program (o : op) : prog := match o with StorePost p => store_post p | ReadPost i => read_post i | ReadPosts is => read_posts is end.

(** ** Running *)
Inductive thread := Running (p : prog) | Done (r : reply) | Gone.
Record world := World { w_db : list post; w_cache : gmap Z post; w_calls : list (op * thread) }.
(** A cache or database call works, or is refused, or works with the answer lost; [n] is which of the goroutines is next.  The cache can drop entries. *)
Inductive fate := Fine | Refused | Lost.
Inductive event := Start (o : op) | Step (t : nat) (f : fate) (n : nat) | Kill (t : nat) | Evict (k : Z).
Definition fine (f : fate) : bool := match f with Fine => true | _ => false end.
Definition done_by (f : fate) : bool := match f with Refused => false | _ => true end.
Definition settle (p : prog) : thread := match p with Ret r => Done r | _ => Running p end.
(** What one call to the cache or the database does; the errors of PostStorageService.go:49, 56, 67, 123, 128 end the call, those of 96 and 138 are
    ignored. *)
Definition act (p : prog) (f : fate) (n : nat) (db : list post) (c : gmap Z post) : list post * gmap Z post * prog :=
  match p with
  | Ret r => (db, c, Ret r)
  | CGet k g => (db, c, g (if fine f then match c !! k with Some p => Hit p | None => Miss end else Err))
  | DIns p k => (if done_by f then db ++ [p] else db, c, if fine f then k else Ret Failed)
  | DFindOne i g => (db, c, if fine f then g (head (filter (λ p, p.1 = i) db)) else Ret Failed)
  | DFindIn is g => (db, c, if fine f then g (filter (λ p, p.1 ∈ is) db) else Ret Failed)
  | CPuts ps k =>
      match ps !! n with
      | Some p => (db, if done_by f then <[p.1 := p]> c else c, fill (delete n ps) k)
      | None => (db, c, CPuts ps k)
      end
  end.
Definition step (e : event) (w : world) : option world :=
  match e with
  | Start o => Some (World (w_db w) (w_cache w) (w_calls w ++ [(o, settle (program o))]))
  | Step t f n =>
      match w_calls w !! t with
      | Some (o, Running p) => let '(db, c, p) := act p f n (w_db w) (w_cache w) in Some (World db c (<[t := (o, settle p)]> (w_calls w)))
      | _ => None
      end
  | Kill t =>
      match w_calls w !! t with
      | Some (o, Running _) => Some (World (w_db w) (w_cache w) (<[t := (o, Gone)]> (w_calls w)))
      | _ => None
      end
  | Evict k => Some (World (w_db w) (delete k (w_cache w)) (w_calls w))
  end.
(** PostStorageService.go:38-41 *)
Definition started : world := World [] ∅ [].
