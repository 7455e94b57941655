(** * Model of the home timelines of the social network example: examples/dsb_sn/workflow/socialnetwork/HomeTimelineService.go

    A call is a sequence of calls of the cache, the social graph and the post storage, which interleave with those of other calls.
    Simplified: the cache is keyed by the user's number (strconv.FormatInt is injective); what the social graph answers is part of the event; the
    posts that ReadPosts returns are thrown away by the code, so only whether it fails matters. *)
From stdpp Require Export numbers gmap.
From stdpp Require Export list.
Open Scope Z_scope.

(** PostInfo: id and timestamp *)
Definition post : Type := Z * Z.
Inductive reply := Ok | Ids (l : list Z) | Failed.
Inductive prog :=
  | Ret (r : reply)
  | Followers (u : Z) (m : list Z → gset Z) (p : list Z → prog) (* GetFollowers; then the loop over a map, in some order *)
  | Get (k : Z) (f : list post → prog)
  | Put (k : Z) (v : list post) (p : prog)
  | ReadPosts (ids : list Z) (p : prog).
Inductive op := Write (pid uid ts : Z) (mentions : list Z) | Read (uid start stop : Z).

(** HomeTimelineService.go:43-49: the keys of followers_set *)
Definition followers_set (followers mentions : list Z) : gset Z := foldl (λ s x, {[x]} ∪ s) (foldl (λ s x, {[x]} ∪ s) ∅ followers) mentions.
(** HomeTimelineService.go:50-62.  Nothing in the cache: posts stays nil *)
Fixpoint deliver (p : post) (ids : list Z) : prog :=
  match ids with
  | [] => Ret Ok
  | id :: ids => Get id (λ posts, Put id (posts ++ [p]) (deliver p ids))
  end.
(** HomeTimelineService.go:38-64 *)
Definition write (pid uid ts : Z) (mentions : list Z) : prog := Followers uid (λ fs, followers_set fs mentions) (deliver (pid, ts)).
(** HomeTimelineService.go:81-87 *)
Definition cut (ids : list Z) (start stop : Z) : list Z :=
  let n := Z.of_nat (length ids) in
  if start <? n then
    let minstop := if n <? stop then n else stop in
    drop (Z.to_nat start) (take (Z.to_nat minstop) ids)
  else ids.
(** HomeTimelineService.go:67-93 *)
Definition read (uid start stop : Z) : prog :=
  if (stop <=? start) || (start <? 0) then Ret (Ids [])
  else Get uid (λ infos, let ids := cut (infos.*1) start stop in ReadPosts ids (Ret (Ids ids))).
Definition program (o : op) : prog := match o with Write p u t m => write p u t m | Read u a b => read u a b end.

(** ** Running *)
Inductive thread := Running (p : prog) | Done (r : reply) | Gone.
Record world := World { w_cache : gmap Z (list post); w_calls : list (op * thread) }.
(** A backend call works, is refused, or is carried out with the answer lost.  [Told]: the social graph answers with these followers, and the
    map is walked in this order.  [Evict]: the cache forgets a key. *)
Inductive fate := Fine | Refused | Lost.
Inductive event := Start (o : op) | Told (t : nat) (followers order : list Z) | Step (t : nat) (f : fate) | Kill (t : nat) | Evict (k : Z).

Definition fine (f : fate) : bool := match f with Fine => true | _ => false end.
Definition done_by (f : fate) : bool := match f with Refused => false | _ => true end.
Definition settle (p : prog) : thread := match p with Ret r => Done r | _ => Running p end.
Definition timeline (w : world) (u : Z) : list post := default [] (w_cache w !! u).
Definition step (e : event) (w : world) : option world :=
  match e with
  | Start o => Some (World (w_cache w) (w_calls w ++ [(o, settle (program o))]))
  | Told t fs ord =>
      match w_calls w !! t with
      | Some (o, Running (Followers _ m p)) =>
          if bool_decide (NoDup ord ∧ list_to_set ord = m fs) then Some (World (w_cache w) (<[t := (o, settle (p ord))]> (w_calls w))) else None
      | _ => None
      end
  | Step t f =>
      match w_calls w !! t with
      | Some (o, Running p) =>
          match p with
          | Ret _ => None
          | Followers _ _ _ => if fine f then None else Some (World (w_cache w) (<[t := (o, Done Failed)]> (w_calls w)))
          | Get k g => Some (World (w_cache w) (<[t := (o, if fine f then settle (g (timeline w k)) else Done Failed)]> (w_calls w)))
          | Put k v p => Some (World (if done_by f then <[k := v]> (w_cache w) else w_cache w) (<[t := (o, if fine f then settle p else Done Failed)]> (w_calls w)))
          | ReadPosts _ p => Some (World (w_cache w) (<[t := (o, if fine f then settle p else Done Failed)]> (w_calls w)))
          end
      | _ => None
      end
  | Kill t =>
      match w_calls w !! t with
      | Some (o, Running _) => Some (World (w_cache w) (<[t := (o, Gone)]> (w_calls w)))
      | _ => None
      end
  | Evict k => Some (World (delete k (w_cache w)) (w_calls w))
  end.
Definition started : world := World ∅ [].
