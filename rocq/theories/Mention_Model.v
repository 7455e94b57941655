(** * Model of the mentions of users in posts of the social network example: examples/dsb_sn/workflow/socialnetwork/TextService.go, UserMentionService.go and UserIdService.go

    A call is a sequence of cache and database calls, which interleave with those of other calls.  Simplified: a user is a name and an id, and is
    stored in one step (C87 has the registration); GetCollection and the parsing of queries do not fail; the links are left out (C93 has them); the
    cache is one of which Mget leaves the values of missing keys alone (simplecache/cache.go:54-67). *)
From Verif Require Export Links_Model.
From stdpp Require Export gmap numbers strings.
From stdpp Require Export list.
Set Default Proof Using "Type".
Open Scope Z_scope.

(** DataModels.go:26-29 *)
Definition user : Type := text * Z.
(** TextService.go:29: [a-zA-Z0-9-_] *)
Definition word (c : ascii) : bool := letter c || code_in c 48 57 || bool_decide (c ∈ txt "-_").
(** TextService.go:29: the @ *)
Definition at_sign : ascii := ascii_of_nat 64.
(** TextService.go:29: the characters of the class at the start, as many as there are *)
Fixpoint words (s : text) : text := match s with c :: s => if word c then c :: words s else [] | [] => [] end.
(** TextService.go:29-34.  There is no @ inside a match, so that matches need not be skipped. *)
Fixpoint names (s : text) : list text :=
  match s with
  | [] => []
  | c :: s => if bool_decide (c = at_sign) then match words s with [] => names s | n => n :: names s end else names s
  end.

(** What the calls answer: UserIdService.go:62, UserMentionService.go:81, or an error *)
Inductive reply := Id (i : Z) | Mentions (l : list user) | Failed.
(** UserIdService.go:30; UserMentionService.go:30, with the text of TextService.go:28 *)
Inductive op := GetId (n : text) | Mention (s : text).
(** What Get of the cache answers *)
Inductive res := Hit (i : Z) | Miss | Err.
(** The calls to cache and database *)
Inductive prog :=
  | Ret (r : reply)
  | CGet (n : text) (f : res → prog)
  | CPut (n : text) (i : Z) (k : prog)
  | DFind (n : text) (f : option Z → prog)
  | DFindIn (ns : list text) (f : list user → prog).

(** UserIdService.go:37-61 *)
Definition find_id (n : text) : prog := DFind n (λ o, match o with Some i => CPut n i (Ret (Id i)) | None => Ret Failed end).
(** UserIdService.go:30-63 *)
Definition get_id (n : text) : prog := CGet n (λ r, match r with Err => Ret Failed | Hit i => Ret (Id i) | Miss => find_id n end).
(** UserMentionService.go:39-44: Mget, of which the error is ignored, as a Get for each key, of which any may fail; [acc] is the names and [values] so far *)
Fixpoint mget (ns : list text) (acc : list user) (k : list user → prog) : prog :=
  match ns with
  | [] => k acc
  | n :: ns => CGet n (λ r, mget ns (acc ++ [(n, match r with Hit i => i | _ => 0 end)]) k)
  end.
(** UserMentionService.go:45-81.  The names left are the keys of a map; their order, which is any, does not matter to the query. *)
Definition after_mget (ns : list text) (values : list user) : prog :=
  let cached := filter (λ p, p.2 ≠ 0) values in
  let left := filter (λ n, n ∉ cached.*1) (remove_dups ns) in
  match left with
  | [] => Ret (Mentions cached)
  | _ => DFindIn left (λ found, Ret (Mentions (cached ++ found)))
  end.
(** UserMentionService.go:30-82 *)
Definition mentions (ns : list text) : prog := mget ns [] (after_mget ns).
(** UserIdService.go:30, TextService.go:29-34, 49 *)
Definition program (o : op) : prog := match o with GetId n => get_id n | Mention s => mentions (names s) end.

(** ** Running *)
(** A call that runs, has answered or was killed *)
Inductive thread := Running (p : prog) | Done (r : reply) | Gone.
(** The user collection, the user cache (UserIdService.go:32, 56; UserMentionService.go:36), and the calls *)
Record world := World { w_db : list user; w_cache : gmap text Z; w_calls : list (op * thread) }.
(** A cache or database call works, or is refused, or works with the answer lost *)
Inductive chance := Works | Refuses | Loses.
(** [Register]: a registration (UserService.go) stores a document.  The cache can drop entries. *)
Inductive event := Register (u : user) | Start (o : op) | Step (t : nat) (f : chance) | Kill (t : nat) | Evict (n : text).
(** Whether the caller sees success *)
Definition fine (f : chance) : bool := match f with Works => true | _ => false end.
(** Whether the call is carried out *)
Definition done_by (f : chance) : bool := match f with Refuses => false | _ => true end.
(** Calls end with their return *)
Definition settle (p : prog) : thread := match p with Ret r => Done r | _ => Running p end.
(** What one call to the cache or the database does; the errors of UserIdService.go:33, 44, 57 and UserMentionService.go:71, 76 end the call, that of
    UserMentionService.go:44 is ignored. *)
Definition act (p : prog) (f : chance) (db : list user) (c : gmap text Z) : gmap text Z * prog :=
  match p with
  | Ret r => (c, Ret r)
  | CGet n g => (c, g (if fine f then match c !! n with Some i => Hit i | None => Miss end else Err))
  | CPut n i k => (if done_by f then <[n := i]> c else c, if fine f then k else Ret Failed)
  | DFind n g => (c, if fine f then g (head (filter (λ u, u.1 = n) db).*2) else Ret Failed)
  | DFindIn ns g => (c, if fine f then g (filter (λ u, u.1 ∈ ns) db) else Ret Failed)
  end.
(** Calls interleave at the calls to cache and database. *)
Definition step (e : event) (w : world) : option world :=
  match e with
  | Register u => Some (World (w_db w ++ [u]) (w_cache w) (w_calls w))
  | Start o => Some (World (w_db w) (w_cache w) (w_calls w ++ [(o, settle (program o))]))
  | Step t f =>
      match w_calls w !! t with
      | Some (o, Running p) => let '(c, p) := act p f (w_db w) (w_cache w) in Some (World (w_db w) c (<[t := (o, settle p)]> (w_calls w)))
      | _ => None
      end
  | Kill t =>
      match w_calls w !! t with
      | Some (o, Running _) => Some (World (w_db w) (w_cache w) (<[t := (o, Gone)]> (w_calls w)))
      | _ => None
      end
  | Evict n => Some (World (w_db w) (delete n (w_cache w)) (w_calls w))
  end.
(** UserMentionService.go:25-27 *)
Definition started : world := World [] ∅ [].
