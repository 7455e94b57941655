(** * C84: the social graph *)
From Verif Require Import SocialGraph_Model SocialGraph_Spec SocialGraph_Proof.
From stdpp Require Import list.
Open Scope Z_scope.

(** C84. If calls about the same lists do not overlap, the backends work, the cache keeps its entries and ids are
    small enough, every call is answered right, given the calls that were answered before: the followers and the
    followees are those of the Follows and Unfollows, in order. *)
Theorem C84_answers es w log l1 o r l2 :
  history (λ w e, exclusive w e ∧ works e ∧ small e) es w log → log = l1 ++ (o, r) :: l2 → right (l1.*1) o r.
Proof. intros H. by apply (i_right _ _ (inv_history _ _ _ H)). Qed.
Print Assumptions C84_answers.
(** C84. So GetFollowers and GetFollowees agree: what is in the one as often is in the other. *)
Theorem C84_symmetric l u v :
  length (filter (.= u) (followers l v)) = length (filter (.= v) (followees l u)).
Proof.
  induction l as [|o l IH] using rev_ind; [done|]. unfold followers, followees in *. rewrite !foldl_app.
  set (x := foldl (follower_step v) [] l) in *. set (y := foldl (followee_step u) [] l) in *. clearbody x y.
  assert (∀ a b (z : list Z), length (filter (.= a) (filter (.≠ b) z)) = if decide (a = b) then 0%nat else length (filter (.= a) z)) as Hf.
  { clear. intros a b z. induction z as [|c z IH]; [by case_decide|]. rewrite (filter_cons (.≠ b)). destruct (decide (c ≠ b)) as [Hn|Hn].
    - rewrite !filter_cons. destruct (decide (c = a)) as [->|]; [|exact IH]. rewrite decide_False by done. cbn [length]. rewrite IH, decide_False; done.
    - assert (c = b) as -> by (destruct (decide (c = b)); [done|by destruct Hn]). rewrite IH, filter_cons.
      destruct (decide (a = b)) as [|Hab]; [done|]. rewrite (decide_False (P := b = a)) by congruence. done. }
  destruct o as [a|a|a|a b|a b]; simpl; [done..| |].
  - repeat case_decide; subst; rewrite ?filter_app, ?app_length, ?filter_cons, ?filter_nil; repeat case_decide; simpl; try congruence; lia.
  - repeat case_decide; subst; rewrite ?Hf; repeat case_decide; congruence.
Qed.
Print Assumptions C84_symmetric.
(** C84. The database then has, of every user that no call is being made about, the same lists since they were inserted. *)
Theorem C84_database es w log u :
  history (λ w e, exclusive w e ∧ works e ∧ small e) es w log →
  (∀ o s, (o, s) ∈ w_calls w → is_running s → Fers u ∉ uses o ∧ Fees u ∉ uses o) →
  u_fers <$> find_doc (w_docs w) u = stored (follower_step u) (log.*1) u ∧
  u_fees <$> find_doc (w_docs w) u = stored (followee_step u) (log.*1) u.
Proof.
  intros H Hq. pose proof (dinv_history _ _ _ H) as [_ Hd].
  assert (∀ t o, running w t o → Fers u ∉ uses o ∧ Fees u ∉ uses o) as Hr.
  { intros t o [ps Ht]. apply (Hq o (Running ps)); [by eapply elem_of_list_lookup_2|done]. }
  split; [apply (Hd (Fers u))|apply (Hd (Fees u))]; intros t o Ht; by apply Hr in Ht as [? ?].
Qed.
Print Assumptions C84_database.

(** Follow makes six calls and Get one or three. *)
Definition follows (t : nat) (o : op) : list event := Start o :: Step t 0 Fine :: Step t 1 Fine :: replicate 4 (Step t 2 Fine).
Definition one (t : nat) (o : op) : list event := [Start o; Step t 0 Fine].
Definition miss (t : nat) (o : op) : list event := Start o :: replicate 3 (Step t 0 Fine).
(** C84. Whatever overlaps or fails, a call that is answered with success made each of its changes: the insertion; or
    the updates of both documents (goroutines 0 and 1) and, last, of both cache entries (goroutine 2), whose reads alone
    may have failed. *)
Theorem C84_acknowledged es w log t o :
  history (λ _ _, True) es w log → w_calls w !! t = Some (o, Done Ok) →
  match o with
  | AddUser _ => fates t 0 es = [Fine]
  | Follow _ _ | Unfollow _ _ => fates t 0 es = [Fine] ∧ fates t 1 es = [Fine] ∧ ∃ f1 f2, fates t 2 es = [f1; f2; Fine; Fine]
  | GetFers _ | GetFees _ => False
  end.
Proof.
  intros H Ht. apply traced_history in H as [_ H]. destruct (H _ _ _ Ht) as (ps & [Hl Hr] & Hs). unfold settle in Hs.
  destruct (outcome ps) as [r|] eqn:Ho; [|done]. injection Hs as <-. pose proof (outcome_ok _ Ho) as Hok.
  assert (∀ g p0, goroutines o !! g = Some p0 → reach p0 (fates t g es) (Ret Ok)) as Hall.
  { intros g p0 Hg. destruct (Hr _ _ Hg) as (p & Hp & Hre). rewrite <- (Hok p); [done|]. by eapply elem_of_list_lookup_2. }
  destruct o.
  - by eapply reach_ins, (Hall 0%nat).
  - specialize (Hall 0%nat _ eq_refl). simpl in Hall. by apply reach_get_ok in Hall.
  - specialize (Hall 0%nat _ eq_refl). simpl in Hall. by apply reach_get_ok in Hall.
  - split; [by eapply reach_upd, (Hall 0%nat)|]. split; [by eapply reach_upd, (Hall 1%nat)|]. by eapply reach_update, (Hall 2%nat).
  - split; [by eapply reach_upd, (Hall 0%nat)|]. split; [by eapply reach_upd, (Hall 1%nat)|]. by eapply reach_update, (Hall 2%nat).
Qed.
Print Assumptions C84_acknowledged.
(** C84. Nor is a list answered if the cache or the database could not be read. *)
Theorem C84_read_errors es w log t o l :
  history (λ _ _, True) es w log → w_calls w !! t = Some (o, Done (Ids l)) →
  (∃ u, o = GetFers u ∨ o = GetFees u) ∧ (fates t 0 es = [Fine] ∨ ∃ f, fates t 0 es = [Fine; Fine; f]).
Proof.
  intros H Ht. apply traced_history in H as [_ H]. destruct (H _ _ _ Ht) as (ps & [Hl Hr] & Hs). unfold settle in Hs.
  destruct (outcome ps) as [r|] eqn:Ho; [|done]. injection Hs as <-.
  destruct (outcome_ids _ _ Ho) as (g & Hg).
  assert (∃ p0, goroutines o !! g = Some p0) as [p0 Hp0].
  { apply lookup_lt_is_Some. rewrite <- Hl. by eapply lookup_lt_Some. }
  destruct (Hr _ _ Hp0) as (p & Hp & Hre). assert (p = Ret (Ids l)) as -> by congruence.
  destruct o; repeat (destruct g as [|g]; [injection Hp0 as <-|]); try done;
    try (exfalso; eapply reach_ids_not; [|exact Hre]; first [apply listless_update|by repeat constructor]); (split; [by eauto|by eapply reach_get]).
Qed.
Print Assumptions C84_read_errors.
(** A Follow whose first reads of the cache failed, among others *)
Example C84_acknowledged_nonvacuous : ∃ w,
  let es := one 0 (AddUser 3) ++ [Start (Follow 1 3); Start (Follow 2 3); Step 1 2 Lost; Step 2 1 Refused; Step 1 1 Fine; Step 1 2 Fine; Step 2 0 Fine;
    Step 1 2 Fine; Step 1 0 Fine; Step 1 2 Fine] ++ one 3 (GetFers 3) in
  history (λ _ _, True) es w [(AddUser 3, Ok); (Follow 1 3, Ok); (GetFers 3, Ids [1])] ∧
  snd <$> w_calls w !! 1%nat = Some (Done Ok) ∧ fates 1 2 es = [Lost; Fine; Fine; Fine].
Proof.
  set (es := one 0 (AddUser 3) ++ _).
  destruct (go_log_call (λ _ _, True) (λ _ _, true) es [(AddUser 3, Ok); (Follow 1 3, Ok); (GetFers 3, Ids [1])] 1 (Done Ok)) as (w & H & Ht); [done|by vm_compute|].
  by exists w.
Qed.

Local Instance op_eq_dec : EqDecision op. Proof. solve_decision. Defined.
Example C84_nonvacuous :
  let es := one 0 (AddUser 1) ++ one 1 (AddUser 2) ++
    (* two that do not get in each other's way *)
    [Start (Follow 1 2); Start (Follow 2 1); Step 2 2 Fine; Step 3 1 Fine; Step 3 2 Fine; Step 2 2 Fine; Step 3 2 Fine; Step 2 0 Fine;
     Step 3 0 Fine; Step 2 2 Fine; Step 2 2 Fine; Step 2 1 Fine; Step 3 2 Fine; Step 3 2 Fine] ++
    follows 4 (Follow 3 2) ++ follows 5 (Unfollow 1 2) ++ one 6 (GetFers 2) ++ one 7 (GetFees 2) ++ follows 8 (Follow 3 2) ++ one 9 (GetFees 3) in
  ∃ w, history (λ w e, exclusive w e ∧ works e ∧ small e) es w
    [(AddUser 1, Ok); (AddUser 2, Ok); (Follow 1 2, Ok); (Follow 2 1, Ok); (Follow 3 2, Ok); (Unfollow 1 2, Ok);
     (GetFers 2, Ids [3]); (GetFees 2, Ids [1]); (Follow 3 2, Ok); (GetFees 3, Ids [2; 2])].
Proof.
  apply (go_log _ (λ w e, (idle w e || match e with Start o => bool_decide (o = Follow 2 1) && bool_decide (length (w_calls w) = 3%nat) &&
      forallb (λ c, bool_decide (c.1 = Follow 1 2) || match c.2 with Done _ => true | _ => false end) (w_calls w) | _ => false end) && worksb e && smallb e)).
  - intros w e. rewrite !andb_true_iff, orb_true_iff. intros [[[H|H] Hw] Hs].
    + split; [by apply idle_exclusive|]. split; [by apply worksb_works|by apply smallb_small].
    + split; [|split; [by apply worksb_works|by apply smallb_small]]. destruct e as [o| |]; [|done..].
      rewrite !andb_true_iff in H. destruct H as [[Ho%bool_decide_eq_true _] H]. subst o. intros o' s Hin Hr. rewrite forallb_forall in H.
      specialize (H (o', s) ltac:(by apply elem_of_list_In)). destruct s; [|done].
      assert (o' = Follow 1 2) as -> by (simpl in H; rewrite orb_false_r in H; by apply bool_decide_eq_true in H).
      simpl. set_solver.
  - by vm_compute.
Qed.

(** ** What does not hold *)

(** Two users follow a third at the same time: one of them is not listed, although both are answered with success. *)
Theorem C84_concurrent_follows_refuted :
  ∃ es w l, history (λ _ e, works e ∧ small e) es w (l ++ [(GetFers 3, Ids [2])]) ∧ l.*1 = [AddUser 3; Follow 1 3; Follow 2 3] ∧
    l.*2 = [Ok; Ok; Ok] ∧ ¬ right (l.*1) (GetFers 3) (Ids [2]).
Proof.
  assert (∃ w, history (λ _ e, works e ∧ small e) (one 0 (AddUser 3) ++ [Start (Follow 1 3); Start (Follow 2 3); Step 1 0 Fine; Step 1 1 Fine; Step 2 0 Fine; Step 2 1 Fine;
    Step 1 2 Fine; Step 1 2 Fine; Step 2 2 Fine; Step 2 2 Fine; Step 1 2 Fine; Step 1 2 Fine; Step 2 2 Fine; Step 2 2 Fine] ++ one 3 (GetFers 3)) w
    ([(AddUser 3, Ok); (Follow 1 3, Ok); (Follow 2 3, Ok)] ++ [(GetFers 3, Ids [2])])) as [w H].
  { apply (go_log _ (λ _ e, worksb e && smallb e)); [|by vm_compute].
    intros w e [? ?]%andb_true_iff. split; [by apply worksb_works|by apply smallb_small]. }
  eexists _, w, _. split; [exact H|]. split; [done|]. split; [done|]. simpl. intros [[_ E]|[_ E]]; [|done]. by vm_compute in E.
Qed.
Print Assumptions C84_concurrent_follows_refuted.
(** Reading the followers while a first one follows empties the list. *)
Theorem C84_concurrent_read_refuted :
  ∃ es w l, history (λ _ e, works e ∧ small e) es w (l ++ [(GetFers 3, Ids [])]) ∧ l.*1 = [AddUser 3; Follow 1 3; GetFers 3] ∧
    ¬ right (l.*1) (GetFers 3) (Ids []).
Proof.
  assert (∃ w, history (λ _ e, works e ∧ small e) (one 0 (AddUser 3) ++ [Start (GetFers 3); Step 1 0 Fine; Step 1 0 Fine] ++ follows 2 (Follow 1 3) ++ [Step 1 0 Fine] ++ one 3 (GetFers 3)) w
    ([(AddUser 3, Ok); (Follow 1 3, Ok); (GetFers 3, Ids [])] ++ [(GetFers 3, Ids [])])) as [w H].
  { apply (go_log _ (λ _ e, worksb e && smallb e)); [|by vm_compute].
    intros w e [? ?]%andb_true_iff. split; [by apply worksb_works|by apply smallb_small]. }
  eexists _, w, _. split; [exact H|]. split; [done|]. simpl. intros [[_ E]|[_ E]]; [|done]. by vm_compute in E.
Qed.
Print Assumptions C84_concurrent_read_refuted.
Definition calm (e : event) : bool := match e with Step _ _ Fine | Start _ | Evict _ => true | _ => false end.
(** After the cache has lost an entry the followers are read from the database, with id 0 ... *)
Theorem C84_eviction_refuted :
  ∃ es w, history (λ w e, exclusive w e ∧ small e ∧ calm e = true) es w
    [(AddUser 3, Ok); (Follow 1 3, Ok); (Follow 2 3, Ok); (GetFers 3, Ids [0; 0])].
Proof.
  exists (one 0 (AddUser 3) ++ follows 1 (Follow 1 3) ++ follows 2 (Follow 2 3) ++ [Evict (Fers 3)] ++ miss 3 (GetFers 3)).
  apply (go_log _ (λ w e, idle w e && smallb e && calm e)); [|by vm_compute].
  intros w e [[? ?]%andb_true_iff ?]%andb_true_iff. split; [by apply idle_exclusive|]. split; [by apply smallb_small|done].
Qed.
Print Assumptions C84_eviction_refuted.
(** ... or, if someone follows first, forgotten. *)
Theorem C84_eviction_follow_refuted :
  ∃ es w, history (λ w e, exclusive w e ∧ small e ∧ calm e = true) es w
    [(AddUser 3, Ok); (Follow 1 3, Ok); (Follow 2 3, Ok); (GetFers 3, Ids [2])].
Proof.
  exists (one 0 (AddUser 3) ++ follows 1 (Follow 1 3) ++ [Evict (Fers 3)] ++ follows 2 (Follow 2 3) ++ one 3 (GetFers 3)).
  apply (go_log _ (λ w e, idle w e && smallb e && calm e)); [|by vm_compute].
  intros w e [[? ?]%andb_true_iff ?]%andb_true_iff. split; [by apply idle_exclusive|]. split; [by apply smallb_small|done].
Qed.
Print Assumptions C84_eviction_follow_refuted.
(** An error of the cache's Get is ignored, with the same effect: Follow succeeds, and the others are forgotten. *)
Theorem C84_cache_error_refuted :
  ∃ es w, history (λ w e, exclusive w e ∧ small e) es w
    [(AddUser 3, Ok); (Follow 1 3, Ok); (Follow 2 3, Ok); (GetFers 3, Ids [2])].
Proof.
  exists (one 0 (AddUser 3) ++ follows 1 (Follow 1 3) ++
    [Start (Follow 2 3); Step 2 0 Fine; Step 2 1 Fine; Step 2 2 Fine; Step 2 2 Refused; Step 2 2 Fine; Step 2 2 Fine] ++ one 3 (GetFers 3)).
  apply (go_log _ (λ w e, idle w e && smallb e)); [|by vm_compute].
  intros w e [? ?]%andb_true_iff. split; [by apply idle_exclusive|by apply smallb_small].
Qed.
Print Assumptions C84_cache_error_refuted.
(** A Follow that fails may have been done by half: 1 follows 3, but 3 is not followed by 1. *)
Theorem C84_failed_follow_refuted :
  ∃ es w, history (λ w e, exclusive w e ∧ small e) es w
    [(AddUser 1, Ok); (AddUser 3, Ok); (Follow 1 3, Failed); (GetFees 1, Ids [3]); (GetFers 3, Ids [])].
Proof.
  exists (one 0 (AddUser 1) ++ one 1 (AddUser 3) ++
    [Start (Follow 1 3); Step 2 0 Fine; Step 2 1 Refused; Step 2 2 Fine; Step 2 2 Fine; Step 2 2 Fine; Step 2 2 Refused] ++ one 3 (GetFees 1) ++ miss 4 (GetFers 3)).
  apply (go_log _ (λ w e, idle w e && smallb e)); [|by vm_compute].
  intros w e [? ?]%andb_true_iff. split; [by apply idle_exclusive|by apply smallb_small].
Qed.
Print Assumptions C84_failed_follow_refuted.
(** Users that were never inserted can be followed, and users can follow twice: Unfollow then removes both. *)
Theorem C84_unknown_users_refuted :
  ∃ es w, history (λ w e, exclusive w e ∧ works e ∧ small e) es w
    [(GetFers 8, Failed); (Follow 7 8, Ok); (Follow 7 8, Ok); (GetFers 8, Ids [7; 7]); (Unfollow 7 8, Ok); (GetFers 8, Ids [])].
Proof.
  exists ([Start (GetFers 8); Step 0 0 Fine; Step 0 0 Fine] ++ follows 1 (Follow 7 8) ++ follows 2 (Follow 7 8) ++ one 3 (GetFers 8) ++
    follows 4 (Unfollow 7 8) ++ one 5 (GetFers 8)).
  apply (go_log _ (λ w e, idle w e && worksb e && smallb e)); [|by vm_compute].
  intros w e [[? ?]%andb_true_iff ?]%andb_true_iff. split; [by apply idle_exclusive|]. split; [by apply worksb_works|by apply smallb_small].
Qed.
Print Assumptions C84_unknown_users_refuted.
(** Ids above 2^53, as those of the unique id service, are rounded in queries: the user just inserted is not found. *)
Theorem C84_large_ids_refuted :
  ∃ es w, history (λ w e, exclusive w e ∧ works e) es w [(AddUser (2 ^ 53 + 1), Ok); (GetFers (2 ^ 53 + 1), Failed)].
Proof.
  exists (one 0 (AddUser (2 ^ 53 + 1)) ++ [Start (GetFers (2 ^ 53 + 1)); Step 1 0 Fine; Step 1 0 Fine]).
  apply (go_log _ (λ w e, idle w e && worksb e)); [|by vm_compute].
  intros w e [? ?]%andb_true_iff. split; [by apply idle_exclusive|by apply worksb_works].
Qed.
Print Assumptions C84_large_ids_refuted.
