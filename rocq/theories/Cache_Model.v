(** * Model of the in-memory cache, runtime/plugins/simplecache/cache.go *)
From Verif Require Export Copy_Model Retry_Model.
Set Default Proof Using "Type".

(** cache.go:12-17: the cache's content. *)
Notation cache := (gmap string gval).

(** cache.go:26-31. *)
Definition put (c : cache) (k : string) (v : gval) : cache := <[k := v]> c.

(** Result of reading one key into a destination. *)
Inductive getres := GMiss | GHit (r : copied).
(** cache.go:33-38. *)
Definition get (c : cache) (k : string) (d : dest) : getres :=
  match c !! k with Some v => GHit (copy_to v d) | None => GMiss end.

(** cache.go:40-53 (Put never fails). *)
Definition mset (c : cache) (ks : list string) (vs : list gval) : cache * bool :=
  if bool_decide (length ks = length vs)
  then (fold_left (λ c kv, put c kv.1 kv.2) (zip ks vs) c, true)
  else (c, false).

(** cache.go:54-67: per-key results up to and including the first error or panic.  [None] = length
    mismatch. *)
Fixpoint mget_loop (c : cache) (kds : list (string * dest)) : list getres :=
  match kds with
  | [] => []
  | (k, d) :: kds' =>
      let r := get c k d in
      r :: match r with
           | GHit CErr | GHit CPanic => []
           | _ => mget_loop c kds'
           end
  end.
Definition mget (c : cache) (ks : list string) (ds : list dest) : option (list getres) :=
  if bool_decide (length ks = length ds) then Some (mget_loop c (zip ks ds)) else None.

(** cache.go:68-73. *)
Definition del (c : cache) (k : string) : cache := delete k c.

(** cache.go:75-83: the counter as read into an int64 variable. *)
Inductive incres := INew (z : Z) | IErr | IPanic.
Definition read_int (c : cache) (k : string) : option Z + bool :=
  match get c k (DPtr TInt) with
  | GMiss => inl (Some 0%Z)
  | GHit (COk (VInt z)) => inl (Some z)
  | GHit (COk _) => inl None (* not reachable: a copy into an int64 is an int64 *)
  | GHit CErr => inr false
  | GHit CPanic => inr true
  end.
Definition incr (c : cache) (k : string) : cache * incres :=
  match read_int c k with
  | inl (Some z) => (put c k (VInt (wrap64 (z + 1))), INew (wrap64 (z + 1)))
  | inl None => (c, IErr)
  | inr false => (c, IErr)
  | inr true => (c, IPanic)
  end.

(** Histories of calls and their replies. *)
Inductive cop :=
| OpPut (k : string) (v : gval)
| OpGet (k : string) (d : dest)
| OpMset (ks : list string) (vs : list gval)
| OpMget (ks : list string) (ds : list dest)
| OpDel (k : string)
| OpIncr (k : string).
Inductive creply :=
| RUnit
| RGet (r : getres)
| RMset (ok : bool)
| RMget (r : option (list getres))
| RIncr (r : incres).
Definition cstep (c : cache) (o : cop) : cache * creply :=
  match o with
  | OpPut k v => (put c k v, RUnit)
  | OpGet k d => (c, RGet (get c k d))
  | OpMset ks vs => let '(c', ok) := mset c ks vs in (c', RMset ok)
  | OpMget ks ds => (c, RMget (mget c ks ds))
  | OpDel k => (del c k, RUnit)
  | OpIncr k => let '(c', r) := incr c k in (c', RIncr r)
  end.
Definition crun (h : list cop) : cache := fold_left (λ c o, fst (cstep c o)) h ∅.

(** ** Concurrent increments.  [Incr] holds no lock across its read (cache.go:77, which takes no lock
    at all) and its write (cache.go:82).  A thread performs any number of increments of one key. *)
Inductive ithread := ThReady (todo : nat) | ThRead (seen : Z) (todo : nat).
(** One step of thread [t] on counter [c] (the value under the key, absent = 0; int64 wrap-around is
    left out): read, or write back seen+1. *)
Definition istep (s : Z * list ithread) (t : nat) : Z * list ithread :=
  match snd s !! t with
  | Some (ThReady (S n)) => (fst s, <[t := ThRead (fst s) n]> (snd s))
  | Some (ThRead z n) => ((z + 1)%Z, <[t := ThReady n]> (snd s))
  | _ => s
  end.
Definition irun (s : Z * list ithread) (sched : list nat) : Z * list ithread := fold_left istep sched s.
