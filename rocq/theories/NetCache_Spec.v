(** * Specification: what a cache behind a network may answer, and when the backends cannot be told apart *)
From Verif Require Export NetCache_Model.
Set Default Proof Using "Type".

(** The laws of encoding/json and decimal notation that are used: an int64 is written in decimal notation, and decimal
    notation is read back. *)
Definition codec_ok (C : codec) : Prop :=
  (∀ z, marshal C (VInt z) = Some (of_num C z)) ∧ (∀ z, num C (of_num C z) = Some z).

Inductive backend := Redis | Memcached.

Section spec.
Context (C : codec) (b : backend).
Notation trace := (list (cop * reply)).

(** A Get of a key with content [c] *)
Definition seen (c : option (text C)) (d : dest) : getres :=
  match c with Some t => GHit (unmarshal C t d) | None => GMiss end.
(** The number after [z] *)
Definition next (z : Z) : Z := match b with Redis => (z + 1)%Z | Memcached => ((z + 1) mod 2 ^ 64)%Z end.

(** The contents that key [k] may have after calls with these replies (latest first), given only the replies.  A write that
    was acknowledged replaces what was there; a write that returned an error may or may not have; memcached may drop a key
    at any time. *)
Fixpoint possible (h : trace) (k : string) (c : option (text C)) : Prop :=
  (b = Memcached ∧ c = None) ∨
  match h with
  | [] => c = None
  | (o, r) :: h =>
      match o with
      | OpPut k' v => if decide (k' = k) then (is_Some c ∧ c = marshal C v) ∨ (r ≠ POk ∧ possible h k c) else possible h k c
      | OpDel k' => if decide (k' = k) then c = None ∨ (r ≠ POk ∧ possible h k c) else possible h k c
      | OpMset ks vs =>
          (∃ i v, ks !! i = Some k ∧ vs !! i = Some v ∧ is_Some c ∧ c = marshal C v ∧
                  (b = Redis → ∀ j, i < j → ks !! j ≠ Some k)) ∨
          ((r ≠ POk ∨ k ∉ ks) ∧ possible h k c)
      | OpIncr k' =>
          if decide (k' = k)
          then (∃ z, c = Some (of_num C (next z)) ∧ (r = PErr ∨ r = PIncr (wrap64 (next z))) ∧
                     ((∃ t, possible h k (Some t) ∧ num C t = Some z) ∨ (b = Redis ∧ possible h k None ∧ z = 0%Z))) ∨
               (r = PErr ∧ possible h k c)
          else possible h k c
      | OpGet k' d => possible h k c ∧ (k' = k → ∀ g, r = PGet g → g = seen c d)
      | OpMget ks ds => possible h k c
      end
  end.
End spec.

Section fine.
Context (C : codec).
(** Reading the JSON text of [v] back gives what copying [v] gives. *)
Definition same (v : gval) (d : dest) : Prop := ∃ t, marshal C v = Some t ∧ unmarshal C t d = copy_to v d.
Definition not_a_number (v : gval) : Prop := v ≠ VNil ∧ (∀ z, v ≠ VInt z) ∧ ∃ t, marshal C v = Some t ∧ num C t = None.
Definition storable (v : gval) : Prop := ∃ t, marshal C v = Some t ∧ fits C t = true.

(** Calls, in a cache with content [c], that behave the same on Redis as on the in-memory cache *)
Definition redis_fine (c : cache) (o : cop) : Prop :=
  match o with
  | OpPut k v => is_Some (marshal C v)
  | OpGet k d => ∀ v, c !! k = Some v → same v d
  | OpMset ks vs => ks ≠ [] ∧ length ks = length vs ∧ Forall (λ v, is_Some (marshal C v)) vs
  | OpMget ks ds =>
      ks ≠ [] ∧ length ks = length ds ∧
      ∀ i k d, ks !! i = Some k → ds !! i = Some d → ∃ v, c !! k = Some v ∧ same v d
  | OpDel k => True
  | OpIncr k =>
      match c !! k with
      | None => True
      | Some v => (∃ z, v = VInt z ∧ (-2 ^ 63 ≤ z < 2 ^ 63 - 1)%Z) ∨ not_a_number v
      end
  end.
(** The same for memcached *)
Definition memc_fine (c : cache) (o : cop) : Prop :=
  match o with
  | OpPut k v => legal k = true ∧ storable v
  | OpGet k d => legal k = true ∧ ∀ v, c !! k = Some v → same v d
  | OpMset ks vs => length ks = length vs ∧ NoDup ks ∧ Forall (λ k, legal k = true) ks ∧ Forall storable vs
  | OpMget ks ds =>
      length ks = length ds ∧ Forall (λ k, legal k = true) ks ∧
      ∀ i k d v, ks !! i = Some k → ds !! i = Some d → c !! k = Some v → same v d
  | OpDel k => legal k = true ∧ is_Some (c !! k)
  | OpIncr k =>
      legal k = true ∧
      match c !! k with
      | None => False
      | Some v => (∃ z, v = VInt z ∧ (0 ≤ z < 2 ^ 63 - 1)%Z) ∨ not_a_number v
      end
  end.
Definition fine_history (fine : cache → cop → Prop) (os : list cop) : Prop :=
  ∀ before o after, os = before ++ o :: after → fine (local_run before).1 o.
End fine.

(** Every goroutine of an Mset is scheduled, unless starting them panics. *)
Definition complete (e : event) : Prop :=
  match e with
  | Call (OpMset ks vs) sch => length ks ≤ length vs → ∀ i, i < length ks → i ∈ map fst sch
  | _ => True
  end.

(** Event [e] is call [o] with all its commands executed and answered, those of one Mset in any order. *)
Definition calm (e : event) (o : cop) : Prop :=
  ∃ sch, e = Call o sch ∧ Forall (λ p, p.2 = Done) sch ∧
    match o with OpMset ks _ => map fst sch ≡ₚ seq 0 (length ks) | _ => True end.

(** The call writes key [k] other than by Incr. *)
Definition writes (e : event) (k : string) : Prop :=
  match e with
  | Call (OpPut k' _) _ | Call (OpDel k') _ | Evict k' => k' = k
  | Call (OpMset ks _) _ => k ∈ ks
  | _ => False
  end.
(** The replies of the increments of [k], earliest first, that were acknowledged; and the number of Incr calls on [k] *)
Definition counted (h : list (cop * reply)) (k : string) : list Z :=
  rev (omap (λ p, match p with (OpIncr k', PIncr z) => if decide (k' = k) then Some z else None | _ => None end) h).
Definition increments (e : event) (k : string) : bool :=
  match e with Call (OpIncr k') _ => bool_decide (k' = k) | _ => false end.
Definition attempts (es : list event) (k : string) : nat := length (filter (λ e, increments e k = true) es).
