(** * Model of the user timelines of the social network example: examples/dsb_sn/workflow/socialnetwork/UserTimelineService.go

    A call is a sequence of cache, database and post storage calls, which interleave with those of other calls.  Simplified: the cache is keyed by the
    user's number (strconv.FormatInt is injective); GetCollection and the parsing of queries do not fail; the sum of start and a length does not
    overflow; the posts that ReadPosts returns are thrown away by the code, so only whether it fails matters; it runs beside the Put of the cache,
    which here is first: its failure ends the call in either case, and it changes nothing of this service.  The database is MongoDB as documented. *)
From Verif Require Export JsonNum_Model.
From stdpp Require Export numbers gmap list.
Set Default Proof Using "Type".
Open Scope Z_scope.

(** UserTimelineService.go:27-30: PostInfo, id and timestamp *)
Definition post : Type := Z * Z.
(** What the cache holds: a []PostInfo from line 191, or a []int64 from line 133 *)
Inductive value := Infos (l : list post) | IdList (l : list Z).
Inductive reply := Ok | Ids (l : list Z) | Failed.
Inductive op := Write (pid uid ts : Z) | Read (uid start stop : Z).
Inductive prog :=
  | Ret (r : reply)
  | CGet (u : Z) (f : list post → prog)
  | CPut (u : Z) (v : value) (p : prog)
  | DFind (u : Z) (f : bool → prog) (* whether there is a document of the user *)
  | DIns (u : Z) (x : post) (p : prog)
  | DPush (u : Z) (x : post) (p : prog)
  | DFirst (u n : Z) (f : option (list post) → prog) (* the first [n] posts of the first document of the user *)
  | ReadPosts (ids : list Z) (p : prog).

(** UserTimelineService.go:183-191 *)
Definition to_cache (pid uid ts : Z) : prog := CGet uid (λ l, CPut uid (Infos (l ++ [(pid, ts)])) (Ret Ok)).
(** UserTimelineService.go:148-192.  The numbers of the update go through JSON (line 173), those of the query and of a new document do not. *)
Definition write (pid uid ts : Z) : prog :=
  DFind uid (λ found,
    if found then DPush uid (json_num pid, json_num ts) (to_cache pid uid ts)
    else DIns uid (pid, ts) (to_cache pid uid ts)).
(** UserTimelineService.go:116-144 *)
Definition finish (uid : Z) (new ids : list Z) : prog :=
  let all := new ++ ids in
  let rest := ReadPosts all (Ret (Ids all)) in
  match new with [] => rest | _ => CPut uid (IdList all) rest end.
(** UserTimelineService.go:99-113 *)
Definition with_stored (uid : Z) (ids : list Z) (o : option (list post)) : prog :=
  match o with None => Ret Failed | Some ps => finish uid (filter (λ x, x ∉ ids) ps.*1) ids end.
(** UserTimelineService.go:61-144 *)
Definition look (uid start stop : Z) : prog :=
  CGet uid (λ l,
    let ids := l.*1 in
    if start + Z.of_nat (length ids) <? stop then DFirst (json_num uid) (json_num stop) (with_stored uid ids) else finish uid [] ids).
(** UserTimelineService.go:55-59 *)
Definition read (uid start stop : Z) : prog := if (stop <=? start) || (start <? 0) then Ret (Ids []) else look uid start stop.
(** UserTimelineService.go:54-192: the calls *)
Definition program (o : op) : prog := match o with Write p u s => write p u s | Read u a b => read u a b end.

(** ** Running *)
Inductive thread := Running (p : prog) | Done (r : reply) | Gone.
(** The database has documents of users and their posts. *)
Record world := World { w_db : list (Z * list post); w_cache : gmap Z value; w_calls : list (op * thread) }.
(** A backend call works, or is refused, or works with the answer lost.  The cache can drop entries. *)
Inductive fate := Fine | Refused | Lost.
Inductive event := Start (o : op) | Step (t : nat) (f : fate) | Kill (t : nat) | Evict (u : Z).
Definition fine (f : fate) : bool := match f with Fine => true | _ => false end.
Definition done_by (f : fate) : bool := match f with Refused => false | _ => true end.
Definition settle (p : prog) : thread := match p with Ret r => Done r | _ => Running p end.
Definition docs (u : Z) (db : list (Z * list post)) : list (Z * list post) := filter (λ d, d.1 = u) db.
(** UserTimelineService.go:186, 63: Get into a []PostInfo.  A []int64 in the cache is an error, for the JSON of runtime/plugins/memcached/cache.go:46 and
    redis/cache.go:47 as for CopyResult (runtime/core/backend/reflect.go:22-50) of simplecache/cache.go:33-38. *)
Definition cached (c : gmap Z value) (u : Z) : option (list post) :=
  match c !! u with None => Some [] | Some (Infos l) => Some l | Some (IdList _) => None end.
(** UserTimelineService.go:173-178: the post is placed first in every document of the user *)
Definition push (u : Z) (x : post) (db : list (Z * list post)) : list (Z * list post) :=
  (λ d : Z * list post, if decide (d.1 = u) then (d.1, x :: d.2) else d) <$> db.
(** What one backend call does; its error ends the call, except that of All (line 160), which comes out as no documents *)
Definition act (p : prog) (f : fate) (db : list (Z * list post)) (c : gmap Z value) : list (Z * list post) * gmap Z value * prog :=
  match p with
  | Ret r => (db, c, Ret r)
  | CGet u g => (db, c, if fine f then match cached c u with Some l => g l | None => Ret Failed end else Ret Failed)
  | CPut u v k => (db, if done_by f then <[u := v]> c else c, if fine f then k else Ret Failed)
  | DFind u g => (db, c, match f with Fine => g (bool_decide (docs u db ≠ [])) | Refused => Ret Failed | Lost => g false end)
  | DIns u x k => (if done_by f then db ++ [(u, [x])] else db, c, if fine f then k else Ret Failed)
  | DPush u x k => (if done_by f then push u x db else db, c, if fine f then k else Ret Failed)
  | DFirst u n g => (db, c, if fine f then g ((λ d, take (Z.to_nat n) d.2) <$> head (docs u db)) else Ret Failed)
  | ReadPosts _ k => (db, c, if fine f then k else Ret Failed)
  end.
Definition step (e : event) (w : world) : option world :=
  match e with
  | Start o => Some (World (w_db w) (w_cache w) (w_calls w ++ [(o, settle (program o))]))
  | Step t f =>
      match w_calls w !! t with
      | Some (o, Running p) => let '(db, c, p) := act p f (w_db w) (w_cache w) in Some (World db c (<[t := (o, settle p)]> (w_calls w)))
      | _ => None
      end
  | Kill t =>
      match w_calls w !! t with
      | Some (o, Running _) => Some (World (w_db w) (w_cache w) (<[t := (o, Gone)]> (w_calls w)))
      | _ => None
      end
  | Evict u => Some (World (w_db w) (delete u (w_cache w)) (w_calls w))
  end.
(** UserTimelineService.go:49-52 *)
Definition started : world := World [] ∅ [].
