(** * C64-C66: caches behind a network *)
From Verif Require Export NetCache_Proof.
Set Default Proof Using "Type".
#[local] Open Scope string_scope.
#[local] Open Scope list_scope.

(** A codec for the examples: JSON numbers, and other values kept as they are.  Type 0 is Go's int, whose JSON text is also
    a number; type 1 is float64, the type that json.Unmarshal gives to numbers in an interface{}; values of type 8 are larger than memcached accepts, those of type 9 have no JSON text. *)
Inductive sample_text := TNum (z : Z) | TVal (v : gval).
Definition sample : codec := {|
  text := sample_text;
  marshal v := match v with VInt z => Some (TNum z) | VBase 0 n => Some (TNum (Z.of_nat n)) | VBase 9 _ => None | v => Some (TVal v) end;
  unmarshal t d :=
    match t, d with
    | TNum z, DPtr TInt => COk (VInt z)
    | TNum z, DPtr (TBase 0) => COk (VBase 0 (Z.to_nat z))
    | TNum z, DPtr TAny => COk (VBase 1 (Z.to_nat z))
    | TNum _, _ => CErr
    | TVal v, d => copy_to v d
    end;
  of_num := TNum;
  num t := match t with TNum z => Some z | _ => None end;
  fits t := match t with TVal (VBase 8 _) => false | _ => true end |}.
Lemma sample_ok : codec_ok sample. Proof. by split. Qed.

(** ** C64 *)
(** Whatever the calls, the replies and the failures: a Get that finds the key, or reports that it does not exist, reflects a
    content that the calls before it, in the order in which the server executed them, may have left there. *)
Theorem C64_redis_gets_see_what_was_written (C : codec) es later earlier k d g :
  (redis_run C es).2 = later ++ (OpGet k d, PGet g) :: earlier →
  ∃ c, possible C Redis earlier k c ∧ g = seen C c d.
Proof.
  intros H. destruct (redis_reply _ _ _ _ _ _ H) as (es1 & f & s' & Hs & <-). exists ((redis_run C es1).1 !! k).
  split; [apply redis_run_inv|]. simpl in Hs. apply command_ok in Hs as [Hs|Hs]; [|done]. by injection Hs.
Qed.
Theorem C64_memcached_gets_see_what_was_written (C : codec) es later earlier k d g :
  Forall complete es → (memc_run C es).2 = later ++ (OpGet k d, PGet g) :: earlier →
  ∃ c, possible C Memcached earlier k c ∧ g = seen C c d.
Proof.
  intros Hc H. destruct (memc_reply _ _ _ _ _ _ Hc H) as (es1 & sch & s' & Hs & <- & Hc1). exists ((memc_run C es1).1 !! k).
  split; [by apply memc_run_inv|]. unfold memc_step in Hs. destruct (legal k); [|done].
  apply command_ok in Hs as [Hs|Hs]; [|done]. by injection Hs.
Qed.

(** Mget: the same for each destination; it stops at the first error. *)
Theorem C64_redis_mgets_see_what_was_written (C : codec) es later earlier ks ds rs :
  (redis_run C es).2 = later ++ (OpMget ks ds, PMget rs) :: earlier →
  (length rs = length ks ∨ last rs = Some (GHit CErr) ∨ last rs = Some (GHit CPanic)) ∧
  ∀ i g, rs !! i = Some g →
  ∃ k c, ks !! i = Some k ∧ possible C Redis earlier k c ∧
    match ds !! i with Some d => g = seen C c d ∨ (c = None ∧ g = GHit CPanic) | None => g = GHit CPanic end.
Proof.
  intros H. destruct (redis_reply _ _ _ _ _ _ H) as (es1 & f & s' & Hs & <-). simpl in Hs. case_bool_decide; [done|].
  apply command_ok in Hs as [Hs|Hs]; [|done]. injection Hs as ->. split; [apply stops_redis|].
  intros i g Hi. destruct (redis_mget_spec _ _ _ _ _ _ Hi) as (k & Hk & Hd). exists k, ((redis_run C es1).1 !! k).
  split; [done|]. split; [apply redis_run_inv|done].
Qed.
Theorem C64_memcached_mgets_see_what_was_written (C : codec) es later earlier ks ds rs :
  Forall complete es → (memc_run C es).2 = later ++ (OpMget ks ds, PMget rs) :: earlier →
  (length rs = length ks ∨ last rs = Some (GHit CErr) ∨ last rs = Some (GHit CPanic)) ∧
  ∀ i g, rs !! i = Some g →
  ∃ k c, ks !! i = Some k ∧ possible C Memcached earlier k c ∧
    match ds !! i with Some d => g = seen C c d | None => (c = None ∧ g = GMiss) ∨ g = GHit CPanic end.
Proof.
  intros Hc H. destruct (memc_reply _ _ _ _ _ _ Hc H) as (es1 & sch & s' & Hs & <- & Hc1). unfold memc_step in Hs.
  destruct (forallb legal ks); [|done].
  apply command_ok in Hs as [Hs|Hs]; [|done]. injection Hs as ->. split; [apply stops_memc|].
  intros i g Hi. destruct (memc_mget_spec _ _ _ _ _ _ Hi) as (k & Hk & Hd). exists k, ((memc_run C es1).1 !! k).
  split; [done|]. split; [by apply memc_run_inv|done].
Qed.

(** In particular: once a Put has been acknowledged, and until the next call that writes the key, a Get decodes the value's
    JSON text.  On memcached the key may have been dropped. *)
Definition writing (k : string) (o : cop) : Prop :=
  match o with OpPut k' _ | OpDel k' | OpIncr k' => k' = k | OpMset ks _ => k ∈ ks | _ => False end.
Lemma possible_after_put C b mid k v h c :
  possible C b (mid ++ (OpPut k v, POk) :: h) k c → Forall (λ p, ¬ writing k p.1) mid →
  (b = Memcached ∧ c = None) ∨ (is_Some c ∧ c = marshal C v).
Proof.
  induction mid as [|[o r] mid IH]; intros H Hw; simpl in H.
  - destruct H as [H|H]; [by left|]. rewrite decide_True in H by done. destruct H as [H|[H _]]; [by right|done].
  - apply Forall_cons in Hw as [Ho Hw]. simpl in Ho. destruct H as [H|H]; [by left|]. apply IH; [|done].
    destruct o as [k0 ?|k0 ?|ks ?|ks ?|k0|k0]; simpl in Ho; rewrite ?decide_False in H by done; try done.
    + by destruct H.
    + destruct H as [(i & w & Hi & _)|[_ H]]; [|done]. destruct Ho. by eapply elem_of_list_lookup_2.
Qed.
Theorem C64_acknowledged_puts_are_read (C : codec) es later mid earlier k v d g :
  Forall (λ p, ¬ writing k p.1) mid →
  ((redis_run C es).2 = later ++ (OpGet k d, PGet g) :: mid ++ (OpPut k v, POk) :: earlier →
   ∃ t, marshal C v = Some t ∧ g = GHit (unmarshal C t d)) ∧
  (Forall complete es → (memc_run C es).2 = later ++ (OpGet k d, PGet g) :: mid ++ (OpPut k v, POk) :: earlier →
   g = GMiss ∨ ∃ t, marshal C v = Some t ∧ g = GHit (unmarshal C t d)).
Proof.
  intros Hw. split.
  - intros (c & Hp & ->)%C64_redis_gets_see_what_was_written.
    apply possible_after_put in Hp as [[? _]|[[t ->] Hm]]; [done| |done]. by exists t.
  - intros Hc (c & Hp & ->)%C64_memcached_gets_see_what_was_written; [|done].
    apply possible_after_put in Hp as [[_ ->]|[[t ->] Hm]]; [by left| |done]. right. by exists t.
Qed.
(** A Put whose answer is lost, a Get that sees it, a refused Delete, a Get that still sees it; an evicted key *)
Example C64_nonvacuous :
  (redis_run sample [Call (OpPut "k" (VInt 1)) []; Call (OpPut "k" (VInt 2)) [(0, Lost)]; Call (OpGet "k" (DPtr TInt)) [];
                     Call (OpDel "k") [(0, Refused)]; Call (OpMget ["k"; "k"] [DPtr TInt; DPtr TAny]) []]).2 =
  [(OpMget ["k"; "k"] [DPtr TInt; DPtr TAny], PMget [GHit (COk (VInt 2)); GHit (COk (VBase 1 2))]); (OpDel "k", PErr);
   (OpGet "k" (DPtr TInt), PGet (GHit (COk (VInt 2)))); (OpPut "k" (VInt 2), PErr); (OpPut "k" (VInt 1), POk)] ∧
  (memc_run sample [Call (OpPut "k" (VInt 1)) []; Evict "k"; Call (OpGet "k" (DPtr TInt)) []]).2 =
  [(OpGet "k" (DPtr TInt), PGet GMiss); (OpPut "k" (VInt 1), POk)] ∧
  Forall (λ p : cop * reply, ¬ writing "k" p.1) [(OpMget ["k"] [DPtr TInt], PErr); (OpDel "j", POk)].
Proof. split; [by vm_compute|]. split; [by vm_compute|]. apply Forall_cons; simpl; split; [tauto|]. apply Forall_cons; simpl; split; [done|constructor]. Qed.

(** ** C65 *)
(** On histories in which every call is [fine] for the backend, every reply is the in-memory cache's. *)
Theorem C65_redis_replaces_simplecache (C : codec) es os :
  codec_ok C → Forall2 calm es os → fine_history (redis_fine C) os → (redis_run C es).2 = (local_run os).2.
Proof. intros HC H1 H2. by destruct (redis_agrees C HC es os H1 H2). Qed.
Theorem C65_memcached_replaces_simplecache (C : codec) es os :
  codec_ok C → Forall2 calm es os → fine_history (memc_fine C) os → (memc_run C es).2 = (local_run os).2.
Proof. intros HC H1 H2. by destruct (memc_agrees C HC es os H1 H2). Qed.

Lemma fine_by_prefixes (fine : cache → cop → Prop) os :
  (∀ i o, os !! i = Some o → fine (local_run (take i os)).1 o) → fine_history fine os.
Proof.
  intros H before o after ->. specialize (H (length before) o). rewrite take_app in H. apply H.
  by apply list_lookup_middle.
Qed.
Definition sample_history : list cop :=
  [OpMset ["a"; "b"] [VInt 4; VBase 2 7]; OpIncr "a"; OpMget ["b"; "a"] [DPtr TAny; DPtr TInt];
   OpIncr "b"; OpDel "b"; OpGet "b" (DPtr (TBase 2)); OpPut "c" (VSlice (TBase 2) [VBase 2 1]); OpGet "c" (DPtr (TSlice TAny))].
Definition sample_events : list event :=
  Call (OpMset ["a"; "b"] [VInt 4; VBase 2 7]) [(1, Done); (0, Done)] :: map (λ o, Call o []) (tail sample_history).
Lemma sample_same v d t : marshal sample v = Some t → unmarshal sample t d = copy_to v d → same sample v d.
Proof. intros. by exists t. Qed.
Ltac lookup_now := match goal with |- context [?c !! ?k] => let x := fresh in set (x := c !! k); vm_compute in x; subst x end.
Example C65_nonvacuous :
  Forall2 calm sample_events sample_history ∧ fine_history (redis_fine sample) sample_history ∧
  fine_history (memc_fine sample) sample_history ∧
  (local_run sample_history).2 =
  [(OpGet "c" (DPtr (TSlice TAny)), PGet (GHit (COk (VSlice TAny [VBase 2 1])))); (OpPut "c" (VSlice (TBase 2) [VBase 2 1]), POk);
   (OpGet "b" (DPtr (TBase 2)), PGet GMiss); (OpDel "b", POk); (OpIncr "b", PErr);
   (OpMget ["b"; "a"] [DPtr TAny; DPtr TInt], PMget [GHit (COk (VBase 2 7)); GHit (COk (VInt 5))]);
   (OpIncr "a", PIncr 5); (OpMset ["a"; "b"] [VInt 4; VBase 2 7], POk)].
Proof.
  split; [|split; [|split]].
  - constructor.
    { exists [(1, Done); (0, Done)]. split; [done|]. split; [by repeat constructor|]. simpl. apply Permutation_swap. }
    simpl. repeat (constructor; [eexists; split; [reflexivity|]; split; [constructor|done]|]). constructor.
  - apply fine_by_prefixes. intros i o Hi.
    destruct i as [|[|[|[|[|[|[|[|i]]]]]]]]; [..|done]; injection Hi as <-; cbn [redis_fine].
    + split; [done|]. split; [done|]. repeat constructor; by eexists.
    + lookup_now. left. by exists 4%Z.
    + split; [done|]. split; [done|]. intros [|[|i]] k d Hk Hd; [| |by destruct i]; injection Hk as <-; injection Hd as <-;
        eexists; (split; [by vm_compute|]); eexists; split; reflexivity.
    + lookup_now. right. split; [done|]. split; [done|]. by eexists.
    + done.
    + intros v Hv. by vm_compute in Hv.
    + by eexists.
    + intros v Hv. vm_compute in Hv. injection Hv as <-. by eexists.
  - apply fine_by_prefixes. intros i o Hi.
    destruct i as [|[|[|[|[|[|[|[|i]]]]]]]]; [..|done]; injection Hi as <-; cbn [memc_fine].
    + split; [done|]. split; [by apply (bool_decide_unpack _); vm_compute|]. split; [by repeat constructor|].
      repeat constructor; by eexists.
    + split; [done|]. lookup_now. left. by exists 4%Z.
    + split; [done|]. split; [by repeat constructor|].
      intros [|[|i]] k d v Hk Hd Hv; [| |by destruct i]; injection Hk as <-; injection Hd as <-; vm_compute in Hv;
        injection Hv as <-; eexists; split; reflexivity.
    + split; [done|]. lookup_now. right. split; [done|]. split; [done|]. by eexists.
    + split; [done|]. lookup_now. by eexists.
    + split; [done|]. intros v Hv. by vm_compute in Hv.
    + split; [done|]. by eexists.
    + split; [done|]. intros v Hv. vm_compute in Hv. injection Hv as <-. by eexists.
  - by vm_compute.
Qed.

(** The conditions are needed: outside them the backends can be told apart. *)
Definition replies (h : list (cop * reply)) : list reply := rev (map snd h).
Definition plain (os : list cop) : list event := map (λ o, Call o [(0, Done)]) os.
(** Redis: an Mget that includes a missing key never succeeds; the in-memory cache and memcached skip it. *)
Theorem C65_redis_mget_of_a_missing_key_fails (C : codec) s k ks ds :
  k ∈ ks → s !! k = None →
  last (redis_mget C s ks ds) = Some (GHit CErr) ∨ last (redis_mget C s ks ds) = Some (GHit CPanic).
Proof.
  intros Hin Hs. revert ds. induction ks as [|k' ks IH]; intros ds; [by apply elem_of_nil in Hin|]. simpl.
  destruct (s !! k') as [t|] eqn:Hk; [|by right]. destruct ds as [|d ds]; [by right|].
  apply elem_of_cons in Hin as [->|Hin]; [congruence|]. destruct (unmarshal C t d); [|by left|by right].
  rewrite last_cons. destruct (IH Hin ds) as [->| ->]; auto.
Qed.
Theorem C65_mget_of_a_missing_key_refuted :
  let os := [OpPut "a" (VInt 1); OpMget ["a"; "b"] [DPtr TInt; DPtr TInt]] in
  replies (local_run os).2 = [POk; PMget [GHit (COk (VInt 1)); GMiss]] ∧
  replies (memc_run sample (plain os)).2 = [POk; PMget [GHit (COk (VInt 1)); GMiss]] ∧
  replies (redis_run sample (plain os)).2 = [POk; PMget [GHit (COk (VInt 1)); GHit CPanic]].
Proof. by vm_compute. Qed.
(** Memcached: Delete and Incr of a missing key are errors. *)
Theorem C65_memcached_needs_the_key (C : codec) sch s k :
  s !! k = None → memc_step C sch s (OpDel k) = (s, PErr) ∧ memc_step C sch s (OpIncr k) = (s, PErr).
Proof.
  intros Hs. unfold memc_step, memc_incr. rewrite Hs, delete_notin by done. destruct (legal k); [|done].
  by destruct (default _ _).
Qed.
Theorem C65_missing_keys_refuted :
  let os := [OpDel "a"; OpIncr "a"; OpIncr "a"] in
  replies (local_run os).2 = [POk; PIncr 1; PIncr 2] ∧
  replies (redis_run sample (plain os)).2 = [POk; PIncr 1; PIncr 2] ∧
  replies (memc_run sample (plain os)).2 = [PErr; PErr; PErr].
Proof. by vm_compute. Qed.
(** Counting past the largest int64, and from a negative number *)
Theorem C65_counter_range_refuted :
  let os := [OpPut "a" (VInt (2 ^ 63 - 1)); OpIncr "a"; OpPut "b" (VInt (-1)); OpIncr "b"] in
  replies (local_run os).2 = [POk; PIncr (-2 ^ 63); POk; PIncr 0] ∧
  replies (redis_run sample (plain os)).2 = [POk; PErr; POk; PIncr 0] ∧
  replies (memc_run sample (plain os)).2 = [POk; PIncr (-2 ^ 63); POk; PErr].
Proof. by vm_compute. Qed.
(** A counter that was stored as an int *)
Theorem C65_int_counter_refuted :
  let os := [OpPut "a" (VBase 0 5); OpIncr "a"; OpGet "a" (DPtr (TBase 0))] in
  replies (local_run os).2 = [POk; PErr; PGet (GHit (COk (VBase 0 5)))] ∧
  replies (redis_run sample (plain os)).2 = [POk; PIncr 6; PGet (GHit (COk (VBase 0 6)))] ∧
  replies (memc_run sample (plain os)).2 = [POk; PIncr 6; PGet (GHit (COk (VBase 0 6)))].
Proof. by vm_compute. Qed.
(** An integer read into an interface{} *)
Theorem C65_interface_destination_refuted :
  let os := [OpPut "a" (VInt 5); OpGet "a" (DPtr TAny)] in
  replies (local_run os).2 = [POk; PGet (GHit (COk (VInt 5)))] ∧
  replies (redis_run sample (plain os)).2 = [POk; PGet (GHit (COk (VBase 1 5)))] ∧
  replies (memc_run sample (plain os)).2 = [POk; PGet (GHit (COk (VBase 1 5)))].
Proof. by vm_compute. Qed.
(** Different numbers of keys and values; no keys *)
Theorem C65_lengths_refuted :
  let os := [OpMset ["a"; "b"] [VInt 1]; OpMset ["a"] [VInt 1; VInt 2]; OpMset [] []; OpMget [] []] in
  replies (local_run os).2 = [PErr; PErr; POk; PMget []] ∧
  replies (redis_run sample (plain os)).2 = [PPanic; POk; PErr; PErr] ∧
  replies (memc_run sample (plain os)).2 = [PPanic; POk; POk; PMget []].
Proof. by vm_compute. Qed.
(** Memcached: keys with spaces, values without JSON text or too large for it; and the order of two values for the same key *)
Theorem C65_memcached_limits_refuted :
  let os := [OpPut "a b" (VInt 1); OpPut "a" (VBase 8 0)] in
  replies (local_run os).2 = [POk; POk] ∧ replies (redis_run sample (plain os)).2 = [POk; POk] ∧
  replies (memc_run sample (plain os)).2 = [PErr; PErr].
Proof. by vm_compute. Qed.
Theorem C65_unencodable_values_refuted :
  let os := [OpPut "a" (VBase 9 0)] in
  replies (local_run os).2 = [POk] ∧ replies (redis_run sample (plain os)).2 = [PErr] ∧
  replies (memc_run sample (plain os)).2 = [PErr].
Proof. by vm_compute. Qed.
Theorem C65_memcached_repeated_keys_refuted :
  let o := OpMset ["a"; "a"] [VInt 1; VInt 2] in
  let run := λ sch, replies (memc_run sample [Call o sch; Call (OpGet "a" (DPtr TInt)) []]).2 in
  run [(0, Done); (1, Done)] = [POk; PGet (GHit (COk (VInt 2)))] ∧
  run [(1, Done); (0, Done)] = [POk; PGet (GHit (COk (VInt 1)))] ∧
  replies (local_run [o; OpGet "a" (DPtr TInt)]).2 = [POk; PGet (GHit (COk (VInt 2)))].
Proof. by vm_compute. Qed.

(** ** C66 *)
(** From a state in which the key holds a number, and while it is not written otherwise: the acknowledged increments, of all
    clients together, return different numbers in increasing order; every acknowledged increment is counted once, and one
    that returned an error at most once. *)
Theorem C66_redis_counts (C : codec) es1 es2 k t z :
  codec_ok C → (redis_run C es1).1 !! k = Some t → num C t = Some z → (0 ≤ z)%Z →
  (z + Z.of_nat (attempts es2 k) < 2 ^ 63)%Z → Forall (λ e, ¬ writes e k) es2 →
  ∃ n t' acks,
    (redis_run C (es1 ++ es2)).1 !! k = Some t' ∧ num C t' = Some (z + Z.of_nat n)%Z ∧
    counted (redis_run C (es1 ++ es2)).2 k = counted (redis_run C es1).2 k ++ acks ∧
    length acks ≤ n ≤ attempts es2 k ∧ StronglySorted Z.lt acks ∧ Forall (λ a, z < a ≤ z + Z.of_nat n)%Z acks.
Proof.
  intros HC Hk Ht Hz Hb Hw. unfold redis_run at 1 2. rewrite fold_left_app.
  apply (counter_run C HC (redis_event C) k z t); auto. intros. by apply redis_counter.
Qed.
Theorem C66_memcached_counts (C : codec) es1 es2 k t z :
  codec_ok C → (memc_run C es1).1 !! k = Some t → num C t = Some z → (0 ≤ z)%Z →
  (z + Z.of_nat (attempts es2 k) < 2 ^ 63)%Z → Forall (λ e, ¬ writes e k) es2 →
  ∃ n t' acks,
    (memc_run C (es1 ++ es2)).1 !! k = Some t' ∧ num C t' = Some (z + Z.of_nat n)%Z ∧
    counted (memc_run C (es1 ++ es2)).2 k = counted (memc_run C es1).2 k ++ acks ∧
    length acks ≤ n ≤ attempts es2 k ∧ StronglySorted Z.lt acks ∧ Forall (λ a, z < a ≤ z + Z.of_nat n)%Z acks.
Proof.
  intros HC Hk Ht Hz Hb Hw. unfold memc_run at 1 2. rewrite fold_left_app.
  apply (counter_run C HC (memc_event C) k z t); auto. intros. by apply memc_counter.
Qed.
(** If nothing fails, every increment is acknowledged and counted (for memcached: if its client library accepts the key). *)
Theorem C66_calm_increments_are_acknowledged (C : codec) s k t z sch :
  num C t = Some z → s !! k = Some t → (0 ≤ z < 2 ^ 63 - 1)%Z → Forall (λ p, p.2 = Done) sch →
  redis_step C Done s (OpIncr k) = (<[k := of_num C (z + 1)]> s, PIncr (z + 1)) ∧
  (legal k = true → memc_step C sch s (OpIncr k) = (<[k := of_num C (z + 1)]> s, PIncr (z + 1))).
Proof.
  intros Ht Hk Hz Hd. unfold memc_step. simpl. unfold redis_incr, memc_incr. rewrite Hk, Ht, !bool_decide_true by lia.
  split; [done|]. intros ->. rewrite Z.mod_small, wrap_in by lia.
  destruct sch as [|[i f] sch]; [done|]. apply Forall_cons in Hd as [Hd _]. simpl in *. by subst f.
Qed.
(** Three increments, of which one is lost after it was counted and one is refused *)
Example C66_nonvacuous :
  let es1 := [Call (OpPut "n" (VInt 7)) []] in
  let es2 := [Call (OpIncr "n") []; Call (OpIncr "n") [(0, Lost)]; Call (OpPut "m" (VInt 0)) []; Call (OpIncr "n") [(0, Refused)];
              Call (OpIncr "n") []] in
  (redis_run sample es1).1 !! "n" = Some (TNum 7) ∧ (memc_run sample es1).1 !! "n" = Some (TNum 7) ∧
  (7 + Z.of_nat (attempts es2 "n") < 2 ^ 63)%Z ∧ Forall (λ e, ¬ writes e "n") es2 ∧
  counted (redis_run sample (es1 ++ es2)).2 "n" = [8; 10]%Z ∧ (redis_run sample (es1 ++ es2)).1 !! "n" = Some (TNum 10) ∧
  counted (memc_run sample (es1 ++ es2)).2 "n" = [8; 10]%Z ∧ attempts es2 "n" = 4.
Proof.
  split; [by vm_compute|]. split; [by vm_compute|]. split; [by vm_compute|].
  split; [repeat (apply Forall_cons_2; [intros Hx; by simpl in Hx|]); apply Forall_nil_2|]. by vm_compute.
Qed.

Print Assumptions C64_redis_gets_see_what_was_written.
Print Assumptions C64_memcached_gets_see_what_was_written.
Print Assumptions C64_redis_mgets_see_what_was_written.
Print Assumptions C64_memcached_mgets_see_what_was_written.
Print Assumptions C64_acknowledged_puts_are_read.
Print Assumptions C65_redis_replaces_simplecache.
Print Assumptions C65_memcached_replaces_simplecache.
Print Assumptions C65_redis_mget_of_a_missing_key_fails.
Print Assumptions C65_memcached_needs_the_key.
Print Assumptions C66_redis_counts.
Print Assumptions C66_memcached_counts.
Print Assumptions C66_calm_increments_are_acknowledged.
Print Assumptions C65_mget_of_a_missing_key_refuted.
Print Assumptions C65_missing_keys_refuted.
Print Assumptions C65_counter_range_refuted.
Print Assumptions C65_int_counter_refuted.
Print Assumptions C65_interface_destination_refuted.
Print Assumptions C65_lengths_refuted.
Print Assumptions C65_memcached_limits_refuted.
Print Assumptions C65_unencodable_values_refuted.
Print Assumptions C65_memcached_repeated_keys_refuted.
