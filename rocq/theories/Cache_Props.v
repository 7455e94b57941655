(** * Properties of the in-memory cache (C24, C25) *)
From Verif Require Import Copy_Model Cache_Model Cache_Spec Cache_Proof.

(** C24. After every sequential history of calls, the cache holds for each key exactly the value of the
    last call that wrote it ([current], defined on the history alone). *)
Theorem C24_cache_is_last_write :
  ∀ h k, crun h !! k = current (rev h) k.
Proof. exact crun_current. Qed.
Print Assumptions C24_cache_is_last_write.

(** Get reports that value, copied to the destination, or absence. *)
Theorem C24_get_reply :
  ∀ h k d, snd (cstep (crun h) (OpGet k d)) =
    RGet (match current (rev h) k with Some v => GHit (copy_to v d) | None => GMiss end).
Proof. exact reply_get. Qed.
Print Assumptions C24_get_reply.

(** Mget is Get for each key, when each value fits its destination. *)
Theorem C24_mget_reply :
  ∀ c ks ds,
    length ks = length ds →
    (∀ i k d, ks !! i = Some k → ds !! i = Some d →
       match get c k d with GHit CErr | GHit CPanic => False | _ => True end) →
    mget c ks ds = Some (zip_with (get c) ks ds).
Proof. exact mget_spec. Qed.
Print Assumptions C24_mget_reply.

(** Mget reports like Get, key by key, up to and including the first value that does not fit its destination. *)
Definition bad (r : getres) : Prop := r = GHit CErr ∨ r = GHit CPanic.
Theorem C24_mget_stops_at_error :
  ∀ c ks ds,
    (length ks ≠ length ds → mget c ks ds = None) ∧
    (length ks = length ds → ∃ n, mget c ks ds = Some (take n (zip_with (get c) ks ds)) ∧
       (∀ i r, S i < n → zip_with (get c) ks ds !! i = Some r → ¬ bad r) ∧
       (n = length ks ∨ ∃ m r, n = S m ∧ zip_with (get c) ks ds !! m = Some r ∧ bad r)).
Proof.
  intros c ks ds. unfold mget. split; intros Hlen; [by rewrite bool_decide_false|]. rewrite bool_decide_true by done.
  revert ds Hlen. induction ks as [|k ks IH]; intros [|d ds] Hlen; try done.
  { exists 0. split_and!; [done|lia|by left]. }
  injection Hlen as Hlen. destruct (IH ds Hlen) as (n & E & Hb & Hn). injection E as E. cbn [zip zip_with mget_loop]. change (zip_with pair ks ds) with (zip ks ds).
  assert (bad (get c k d) ∨ ¬ bad (get c k d)) as [Hbad|Hok] by (unfold bad; destruct (get c k d) as [|[]]; naive_solver).
  - exists 1. split_and!.
    + simpl. rewrite take_0. by destruct Hbad as [-> | ->].
    + lia.
    + right. by exists 0, (get c k d).
  - exists (S n). split_and!.
    + rewrite E. simpl. do 2 f_equal. destruct (get c k d) as [|[]]; unfold bad in Hok; naive_solver.
    + intros [|i] r Hi; simpl; [by intros [= <-]|]. apply Hb. lia.
    + destruct Hn as [->|(m & r & -> & Hm & Hr)]; [by left|]. right. by exists (S m), r.
Qed.
Print Assumptions C24_mget_stops_at_error.

(** Mset fails exactly on lists of different lengths (and then changes nothing). *)
Theorem C24_mset_reply :
  ∀ c ks vs, snd (cstep c (OpMset ks vs)) = RMset (bool_decide (length ks = length vs)) ∧
    (length ks ≠ length vs → fst (cstep c (OpMset ks vs)) = c).
Proof.
  intros c ks vs. simpl. unfold mset. case_bool_decide; done.
Qed.
Print Assumptions C24_mset_reply.

(** No call affects a key it does not name. *)
Theorem C24_other_keys_untouched :
  ∀ h o k, k ∉ writes o → crun (h ++ [o]) !! k = crun h !! k.
Proof. exact other_keys. Qed.
Print Assumptions C24_other_keys_untouched.

Definition h_example : list cop :=
  [OpPut "a" (VBase 1 5); OpMset ["b"; "a"; "b"] [VInt 1; VBase 1 6; VInt 41]; OpIncr "b"; OpIncr "c";
   OpIncr "a"; OpDel "zz"].
Example C24_nonvacuous :
  crun h_example !! "a" = Some (VBase 1 6) ∧ crun h_example !! "b" = Some (VInt 42) ∧
  crun h_example !! "c" = Some (VInt 1) ∧
  snd (cstep (crun h_example) (OpGet "b" (DPtr TAny))) = RGet (GHit (COk (VInt 42))) ∧
  snd (cstep (crun h_example) (OpGet "d" (DPtr TAny))) = RGet GMiss.
Proof. by vm_compute. Qed.

(** Incr reports the new value, which is what the cache holds afterwards: one more than before (1 if absent);
    it fails exactly on a value that is not an integer. *)
Theorem C24_incr_reply :
  ∀ h k,
    match current (rev h) k with
    | None => snd (cstep (crun h) (OpIncr k)) = RIncr (INew 1)
    | Some (VInt z) => snd (cstep (crun h) (OpIncr k)) = RIncr (INew (wrap64 (z + 1)))
    | Some v => (snd (cstep (crun h) (OpIncr k)) = RIncr IErr ∨ snd (cstep (crun h) (OpIncr k)) = RIncr IPanic) ∧ crun (h ++ [OpIncr k]) !! k = Some v
    end ∧
    ∀ z, snd (cstep (crun h) (OpIncr k)) = RIncr (INew z) → crun (h ++ [OpIncr k]) !! k = Some (VInt z).
Proof.
  intros h k. rewrite <-crun_current.
  assert (crun (h ++ [OpIncr k]) = fst (cstep (crun h) (OpIncr k))) as -> by (unfold crun; by rewrite fold_left_app). simpl.
  unfold incr, read_int, get. destruct (crun h !! k) as [v|] eqn:E; simpl.
  - destruct v; simpl; try (rewrite E; split; [split; [by left|done]|done]);
      try (rewrite E; split; [split; [by right|done]|done]).
    split; [done|]. intros z' [= <-]. unfold put. by rewrite lookup_insert.
  - split; [done|]. intros z [= <-]. unfold put. by rewrite lookup_insert.
Qed.
Print Assumptions C24_incr_reply.

(** C25. Concurrent increments by any number of threads under any schedule: the counter ends between
    one more than it began (if any increment completed) and the exact sum. *)
Theorem C25_counter_bounds :
  ∀ init ts sched c ts',
    all_ready ts → irun (init, ts) sched = (c, ts') →
    let done := (total_pending ts - total_pending ts')%Z in
    (init ≤ c)%Z ∧ (c ≤ init + done)%Z ∧ (0 < done → init + 1 ≤ c)%Z.
Proof. exact incr_bounds. Qed.
Print Assumptions C25_counter_bounds.

(** Increments that do not overlap are all counted. *)
Theorem C25_serial_increments_counted :
  ∀ init ts ord c ts',
    all_ready ts → irun (init, ts) (flat_map (λ t, [t; t]) ord) = (c, ts') →
    all_ready ts' ∧ (c = init + (total_pending ts - total_pending ts'))%Z.
Proof. exact incr_serial. Qed.
Print Assumptions C25_serial_increments_counted.

Example C25_nonvacuous :
  all_ready [ThReady 2; ThReady 1] ∧
  irun (5%Z, [ThReady 2; ThReady 1]) (flat_map (λ t, [t; t]) [0; 1; 0]) = (8%Z, [ThReady 0; ThReady 0]).
Proof. split; [|by vm_compute]. intros t. rewrite !elem_of_cons, elem_of_nil. naive_solver. Qed.

(** But overlapping increments can be lost: the lower bound of C25_counter_bounds is attained. *)
Theorem C25_increments_not_lost_refuted :
  ¬ (∀ init ts sched c ts',
       all_ready ts → irun (init, ts) sched = (c, ts') →
       c = (init + (total_pending ts - total_pending ts'))%Z).
Proof.
  intros H.
  specialize (H 0%Z [ThReady 1; ThReady 3] [0; 1; 1; 1; 1; 1; 1; 0] 1%Z [ThReady 0; ThReady 0]).
  assert (1 = 0 + (4 - 0))%Z; [|done]. apply H; [|by vm_compute].
  intros t. rewrite !elem_of_cons, elem_of_nil. naive_solver.
Qed.
Print Assumptions C25_increments_not_lost_refuted.
