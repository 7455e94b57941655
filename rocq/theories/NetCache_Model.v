(** * Model of the cache clients for Redis and memcached: runtime/plugins/redis/cache.go, runtime/plugins/memcached/cache.go

    The client libraries and servers are taken at their documented behaviour: a Redis or memcached server executes commands
    one at a time on a map from keys to texts, so a history lists the commands of all clients in the order in which
    the server sees them.  Encoding/json and the decimal notation of numbers are given by a [codec]. *)
From Verif Require Export Cache_Model.
From Coq Require Export Ascii.
From stdpp Require Export list.
Set Default Proof Using "Type".

(** [marshal] and [unmarshal] are json.Marshal and json.Unmarshal, the latter into a pointer; [of_num] and [num] write and
    read decimal integers; [fits] is memcached's limit on the size of a value. *)
Record codec := Codec {
  text : Type;
  marshal : gval → option text;
  unmarshal : text → dest → copied;
  of_num : Z → text;
  num : text → option Z;
  fits : text → bool }.

(** What becomes of a command: executed and answered; not executed, error; executed, but the answer is lost, error. *)
Inductive fate := Done | Refused | Lost.
(** What a call returns.  For Get: whether the key exists and what happened to the destination.  For Mget: what happened to
    the destinations that were written, the last of which may be an error or a panic. *)
Inductive reply := POk | PErr | PPanic | PGet (r : getres) | PMget (rs : list getres) | PIncr (z : Z).

(** The in-memory cache's replies (Cache_Model) in these terms *)
Definition local_reply (r : creply) : reply :=
  match r with
  | RUnit => POk
  | RGet r => PGet r
  | RMset b => if b then POk else PErr
  | RMget None => PErr
  | RMget (Some rs) => PMget rs
  | RIncr (INew z) => PIncr z
  | RIncr IErr => PErr
  | RIncr IPanic => PPanic
  end.

Section codec.
Context (C : codec).
Notation server := (gmap string (text C)).

(** One command, which would change [s] to [s'] and make the call return [r] *)
Definition command (f : fate) (s s' : server) (r : reply) : server * reply :=
  match f with Done => (s', r) | Refused => (s, PErr) | Lost => (s', PErr) end.
(** Get: redis/cache.go:39-50, memcached/cache.go:38-47 *)
Definition read (s : server) (k : string) (d : dest) : reply :=
  PGet (match s !! k with Some t => GHit (unmarshal C t d) | None => GMiss end).

(** ** Redis *)
(** redis/cache.go:66-74 after a successful MGET: [res.(string)] panics for a missing key, [values[idx]] for a missing
    destination *)
Fixpoint redis_mget (s : server) (ks : list string) (ds : list dest) : list getres :=
  match ks with
  | [] => []
  | k :: ks =>
      match s !! k, ds with
      | Some t, d :: ds => GHit (unmarshal C t d) :: match unmarshal C t d with COk _ => redis_mget s ks ds | _ => [] end
      | _, _ => [GHit CPanic]
      end
  end.
(** redis/cache.go:79-86: the entries of the map, in the order in which they are put in it *)
Fixpoint marshal_all (ks : list string) (vs : list gval) : list (string * text C) + reply :=
  match ks with
  | [] => inl []
  | k :: ks =>
      match vs with
      | [] => inr PPanic
      | v :: vs =>
          match marshal C v with
          | None => inr PErr
          | Some t => match marshal_all ks vs with inl l => inl ((k, t) :: l) | inr r => inr r end
          end
      end
  end.
(** Redis INCR on a text: only 64-bit integers, no overflow *)
Definition redis_incr (s : server) (k : string) : server * reply :=
  match (match s !! k with None => Some 0%Z | Some t => num C t end) with
  | Some z => if bool_decide (-2 ^ 63 ≤ z < 2 ^ 63 - 1)%Z then (<[k := of_num C (z + 1)]> s, PIncr (z + 1)) else (s, PErr)
  | None => (s, PErr)
  end.
(** redis/cache.go:29-88.  MGET and MSET without keys are errors. *)
Definition redis_step (f : fate) (s : server) (o : cop) : server * reply :=
  match o with
  | OpPut k v => match marshal C v with Some t => command f s (<[k := t]> s) POk | None => (s, PErr) end
  | OpGet k d => command f s s (read s k d)
  | OpIncr k => let '(s', r) := redis_incr s k in command f s s' r
  | OpDel k => command f s (delete k s) POk
  | OpMget ks ds => if bool_decide (ks = []) then (s, PErr) else command f s s (PMget (redis_mget s ks ds))
  | OpMset ks vs =>
      match marshal_all ks vs with
      | inr r => (s, r)
      | inl l => if bool_decide (l = []) then (s, PErr) else command f s (fold_left (λ s kt, <[kt.1 := kt.2]> s) l s) POk
      end
  end.

(** ** Memcached *)
(** Keys that the client library and the server accept (gomemcache legalKey; the server rejects an empty key) *)
Fixpoint printable (k : string) : bool :=
  match k with
  | EmptyString => true
  | String c k => (32 <? N_of_ascii c)%N && negb (N_of_ascii c =? 127)%N && printable k
  end.
Definition legal (k : string) : bool := bool_decide (k ≠ "" ∧ String.length k ≤ 250) && printable k.
(** memcached/cache.go:29-35 *)
Definition memc_put (f : fate) (s : server) (k : string) (v : gval) : server * reply :=
  match marshal C v with
  | Some t => if legal k && fits C t then command f s (<[k := t]> s) POk else (s, PErr)
  | None => (s, PErr)
  end.
(** memcached/cache.go:50-53: incr on unsigned 64-bit numbers; a missing key is an error *)
Definition memc_incr (s : server) (k : string) : server * reply :=
  match s !! k with
  | None => (s, PErr)
  | Some t =>
      match num C t with
      | Some z => if bool_decide (0 ≤ z < 2 ^ 64)%Z then (<[k := of_num C ((z + 1) mod 2 ^ 64)]> s, PIncr (wrap64 ((z + 1) mod 2 ^ 64))) else (s, PErr)
      | None => (s, PErr)
      end
  end.
(** memcached/cache.go:66-73 after a successful GetMulti *)
Fixpoint memc_mget (s : server) (ks : list string) (ds : list dest) : list getres :=
  match ks with
  | [] => []
  | k :: ks =>
      match s !! k, ds with
      | Some t, d :: _ => GHit (unmarshal C t d) :: match unmarshal C t d with COk _ => memc_mget s ks (tail ds) | _ => [] end
      | Some _, [] => [GHit CPanic]
      | None, _ => GMiss :: memc_mget s ks (tail ds)
      end
  end.
(** memcached/cache.go:78-95.  The goroutines run in any order: [sch] lists them with the fate of their command.  If there
    are not enough values, starting a goroutine panics; those started before may run. *)
Definition memc_puts (s : server) (ks : list string) (vs : list gval) (sch : list (nat * fate)) : server * bool :=
  fold_left (λ '(s, ok) '(i, f),
    match ks !! i, vs !! i with
    | Some k, Some v => let '(s', r) := memc_put f s k v in (s', ok && match r with POk => true | _ => false end)
    | _, _ => (s, ok)
    end) sch (s, true).
Definition memc_step (sch : list (nat * fate)) (s : server) (o : cop) : server * reply :=
  let f := default Done (snd <$> head sch) in
  match o with
  | OpPut k v => memc_put f s k v
  | OpGet k d => if legal k then command f s s (read s k d) else (s, PErr)
  | OpIncr k => if legal k then let '(s', r) := memc_incr s k in command f s s' r else (s, PErr)
  | OpDel k => if legal k then command f s (delete k s) (match s !! k with Some _ => POk | None => PErr end) else (s, PErr)
  | OpMget ks ds => if forallb legal ks then command f s s (PMget (memc_mget s ks ds)) else (s, PErr)
  | OpMset ks vs =>
      let '(s', ok) := memc_puts s ks vs sch in
      (s', if bool_decide (length vs < length ks) then PPanic else if ok then POk else PErr)
  end.

(** ** Histories *)
(** Calls with the fates of their commands; memcached may also drop a key at any time. *)
Inductive event := Call (o : cop) (sch : list (nat * fate)) | Evict (k : string).
(** The calls and their replies, latest first *)
Notation trace := (list (cop * reply)).
Definition redis_event (st : server * trace) (e : event) : server * trace :=
  match e with
  | Call o sch => let '(s', r) := redis_step (default Done (snd <$> head sch)) st.1 o in (s', (o, r) :: st.2)
  | Evict _ => st
  end.
Definition memc_event (st : server * trace) (e : event) : server * trace :=
  match e with
  | Call o sch => let '(s', r) := memc_step sch st.1 o in (s', (o, r) :: st.2)
  | Evict k => (delete k st.1, st.2)
  end.
Definition redis_run (es : list event) : server * trace := fold_left redis_event es (∅, []).
Definition memc_run (es : list event) : server * trace := fold_left memc_event es (∅, []).
End codec.
(** The in-memory cache on the same calls *)
Definition local_event (st : cache * list (cop * reply)) (o : cop) : cache * list (cop * reply) :=
  let '(c', r) := cstep st.1 o in (c', (o, local_reply r) :: st.2).
Definition local_run (os : list cop) : cache * list (cop * reply) := fold_left local_event os (∅, []).
