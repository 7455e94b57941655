(** * Properties of the post storage *)
From Verif Require Import Posts_Proof.
From Verif Require UniqueId_Spec UniqueId_Proof.
From stdpp Require Import list.
Set Default Proof Using "Type".
Open Scope Z_scope.

(** ** C91 *)
(** ReadPost answers a post that was given to StorePost with that id. *)
Theorem C91_post_sound es1 w1 i es2 w2 p : around es1 w1 (ReadPost i) es2 w2 → answered w2 (length (w_calls w1)) (ReadPost i) (One p) →
  p.1 = i ∧ called w2 (StorePost p).
Proof.
  intros Har Ha. destruct (around_stage _ _ _ _ _ _ Har Ha) as (Hst & _ & Hi). inversion Hst; subst. split; [done|]. by apply stored_called.
Qed.
(** A post of which the storing was acknowledged before is not missed, and, if no other call stores under its id, is what is answered. *)
Theorem C91_post_complete es1 w1 i es2 w2 r t p : around es1 w1 (ReadPost i) es2 w2 → answered w2 (length (w_calls w1)) (ReadPost i) r →
  answered w1 t (StorePost p) Ok → p.1 = i → r = Failed ∨ ∃ q, r = One q ∧ q.1 = i ∧ (own_ids w2 → q = p).
Proof.
  intros Har Ha Hack Hp. destruct (around_stage _ _ _ _ _ _ Har Ha) as (Hst & Hi1 & Hi). pose proof (stored_acked _ _ _ Hi1 Hack) as Hin.
  inversion Hst as [| | | | |i' q Hq Hqd|i' Hn| |]; subst; [by left| |by destruct (Hn _ Hin)].
  right. exists q. split; [done|]. split; [done|]. intros Ho. apply (same_post (w_db w2)); [by apply stored_unique|done| |done].
  destruct Har as (_ & w1' & Hs & Hr). destruct (inv_step _ _ _ Hs Hi1) as [Hi' [x Hx]]. destruct (inv_run _ _ _ Hr Hi') as [_ [y Hy]]. rewrite Hy, Hx. set_solver.
Qed.
(** ReadPosts answers posts that were given to StorePost, with ids that were asked for, if queries can hold them. *)
Theorem C91_posts_sound es1 w1 is es2 w2 l p : around es1 w1 (ReadPosts is) es2 w2 → answered w2 (length (w_calls w1)) (ReadPosts is) (Posts l) → p ∈ l →
  called w2 (StorePost p) ∧ (Forall exact is → p.1 ∈ is).
Proof.
  intros Har Ha Hp. destruct (around_stage _ _ _ _ _ _ Har Ha) as (_ & _ & Hi). destruct (posts_good _ _ _ _ _ _ Har Ha) as (H1 & _ & _).
  destruct (H1 _ Hp) as [Hd Hin]. split; [by apply stored_called|]. intros Hex. destruct Hin as [|Hin]; [done|]. apply elem_of_list_fmap in Hin as (i & -> & Hin).
  rewrite Forall_forall in Hex. by rewrite json_small by (by apply Hex).
Qed.
(** It misses no post of which the storing was acknowledged before, ... *)
Theorem C91_posts_complete es1 w1 is es2 w2 l t p : around es1 w1 (ReadPosts is) es2 w2 → answered w2 (length (w_calls w1)) (ReadPosts is) (Posts l) →
  answered w1 t (StorePost p) Ok → p.1 ∈ is → exact p.1 → ∃ q, q ∈ l ∧ q.1 = p.1 ∧ (own_ids w2 → q = p).
Proof.
  intros Har Ha Hack Hp Hex. destruct (around_stage _ _ _ _ _ _ Har Ha) as (_ & Hi1 & Hi). destruct (posts_good _ _ _ _ _ _ Har Ha) as (H1 & H2 & _).
  pose proof (stored_acked _ _ _ Hi1 Hack) as Hin. destruct (H2 _ Hin Hp (json_small _ Hex)) as (q & Hq & E). exists q. split; [done|]. split; [done|].
  intros Ho. apply (same_post (w_db w2)); [by apply stored_unique|by apply H1| |done].
  destruct Har as (_ & w1' & Hs & Hr). destruct (inv_step _ _ _ Hs Hi1) as [Hi' [x Hx]]. destruct (inv_run _ _ _ Hr Hi') as [_ [y Hy]]. rewrite Hy, Hx. set_solver.
Qed.
(** ... and repeats none. *)
Theorem C91_posts_once es1 w1 is es2 w2 l : around es1 w1 (ReadPosts is) es2 w2 → answered w2 (length (w_calls w1)) (ReadPosts is) (Posts l) →
  own_ids w2 → NoDup is → Forall exact is → NoDup l.*1.
Proof.
  intros Har Ha Ho Hn Hex. destruct (around_stage _ _ _ _ _ _ Har Ha) as (_ & _ & Hi). destruct (posts_good _ _ _ _ _ _ Har Ha) as (_ & _ & H3).
  apply H3; [done| |by apply stored_unique]. intros i Hin. apply json_small. rewrite Forall_forall in Hex. by apply Hex.
Qed.
(** So what is in the cache makes no difference: two answers to a request for the same ids have the same posts, apart from those stored in between. *)
Theorem C91_cache_invisible es1 w1 is es2 w2 l es1' w1' es2' l' p : around es1 w1 (ReadPosts is) es2 w2 → answered w2 (length (w_calls w1)) (ReadPosts is) (Posts l) →
  around es1' w1' (ReadPosts is) es2' w2 → answered w2 (length (w_calls w1')) (ReadPosts is) (Posts l') →
  own_ids w2 → Forall exact is → p ∈ l → (∃ t, answered w1' t (StorePost p) Ok) → p ∈ l'.
Proof.
  intros Har Ha Har' Ha' Ho Hex Hp [t Ht]. destruct (C91_posts_sound _ _ _ _ _ _ _ Har Ha Hp) as [_ Hin]. specialize (Hin Hex).
  destruct (C91_posts_complete _ _ _ _ _ _ _ _ Har' Ha' Ht Hin) as (q & Hq & _ & E); [rewrite Forall_forall in Hex; by apply Hex|]. by rewrite <-(E Ho).
Qed.

(** Of the ids that the service for unique ids makes, queries can hold those of machines with ids below 512, such as containers, which have 0; those
    of all other machines are too large to be sure. *)
Theorem C91_machines m ts i t n x : UniqueId_Spec.machine m → 0 ≤ t → UniqueId_Spec.gets m ts i t n x → (m < 512 → exact x) ∧ (512 ≤ m → 2 ^ 53 ≤ x).
Proof.
  intros Hm Ht Hg. apply UniqueId_Proof.gets_id in Hg as ->; [|done|done]. unfold UniqueId_Spec.machine in Hm. unfold UniqueId_Proof.id_of, exact.
  pose proof (UniqueId_Proof.fitted_bound 10 t Ht) as H1. pose proof (UniqueId_Proof.fitted_bound 1 (Z.of_nat n) ltac:(lia)) as H2. simpl in *. lia.
Qed.

(** ** What does not hold *)
Fixpoint play (es : list event) (w : world) : option world :=
  match es with [] => Some w | e :: es => match step e w with Some w' => play es w' | None => None end end.
Lemma run_cons w e w1 es w2 : step e w = Some w1 → run w1 es w2 → run w (e :: es) w2.
Proof.
  intros Hs Hr. induction Hr as [w1|w1 es w2 e' w3 Hr IH Hs'].
  - apply (run_snoc w [] w e w1); [apply run_nil|done].
  - change (e :: es ++ [e']) with ((e :: es) ++ [e']). eapply run_snoc; eauto.
Qed.
Lemma play_run es w w' : play es w = Some w' → run w es w'.
Proof.
  revert w. induction es as [|e es IH]; simpl; intros w H; [simplify_eq; apply run_nil|]. destruct (step e w) as [w1|] eqn:Hs; [|done]. eapply run_cons; eauto.
Qed.
(** A post with an id of the service that makes them, stored and alone, is not found by ReadPosts, although ReadPost finds it. *)
Theorem C91_large_id_refuted : ∃ machine t i es w,
  0 ≤ machine < 2 ^ 16 ∧ (UniqueId_Model.new_id machine UniqueId_Model.new_gen t).1 = Some i ∧ history es w ∧ answered w 0 (StorePost (i, "x"%string)) Ok ∧
  answered w 1 (ReadPosts [i]) (Posts []) ∧ answered w 2 (ReadPost i) (One (i, "x"%string)).
Proof.
  exists 4660, 1700000012345, 81981286966990896.
  exists [Start (StorePost (81981286966990896, "x"%string)); Step 0 Fine 0; Start (ReadPosts [81981286966990896]); Step 1 Fine 0; Step 1 Fine 0; Start (ReadPost 81981286966990896); Step 2 Fine 0; Step 2 Fine 0].
  eexists. split; [lia|]. split; [vm_compute; reflexivity|]. split; [apply play_run; vm_compute; reflexivity|]. split; [vm_compute; reflexivity|]. split; vm_compute; reflexivity.
Qed.
(** ReadPosts can answer a post that was not asked for. *)
Theorem C91_other_id_refuted : ∃ es w, history es w ∧ answered w 1 (ReadPosts [2 ^ 53 + 1]) (Posts [(2 ^ 53, "x"%string)]).
Proof.
  exists [Start (StorePost (2 ^ 53, "x"%string)); Step 0 Fine 0; Start (ReadPosts [2 ^ 53 + 1]); Step 1 Fine 0; Step 1 Fine 0; Step 1 Fine 0]. eexists.
  split; [apply play_run; vm_compute; reflexivity|]. vm_compute. reflexivity.
Qed.
(** The order is not that of the request, ids that are unknown are left out without an error, and an id that is asked for twice is answered twice only
    from the cache. *)
Theorem C91_order_refuted : ∃ es w, history es w ∧ answered w 2 (ReadPosts [7; 1; 2]) (Posts [(1, "x"%string); (2, "y"%string)]) ∧
  answered w 3 (ReadPosts [2; 3; 1; 1]) (Posts [(2, "y"%string); (1, "x"%string)]) ∧ answered w 4 (ReadPosts [1; 2; 2]) (Posts [(1, "x"%string); (2, "y"%string); (2, "y"%string)]) ∧
  answered w 5 (ReadPosts [1; 2; 2]) (Posts [(1, "x"%string); (2, "y"%string)]).
Proof.
  exists ([Start (StorePost (1, "x"%string)); Step 0 Fine 0; Start (StorePost (2, "y"%string)); Step 1 Fine 0; Start (ReadPosts [7; 1; 2])] ++ replicate 6 (Step 2 Fine 0) ++
    [Evict 1; Start (ReadPosts [2; 3; 1; 1])] ++ replicate 6 (Step 3 Fine 0) ++ [Start (ReadPosts [1; 2; 2])] ++ replicate 3 (Step 4 Fine 0) ++ [Evict 1; Evict 2; Start (ReadPosts [1; 2; 2])] ++ replicate 6 (Step 5 Fine 0)).
  eexists. split; [apply play_run; vm_compute; reflexivity|]. split; [vm_compute; reflexivity|]. split; [vm_compute; reflexivity|]. split; vm_compute; reflexivity.
Qed.
(** A call that is made again after its answer was lost stores the post twice. *)
Theorem C91_retry_refuted : ∃ es w, history es w ∧ answered w 0 (StorePost (1, "x"%string)) Failed ∧ answered w 1 (StorePost (1, "x"%string)) Ok ∧
  answered w 2 (ReadPosts [1]) (Posts [(1, "x"%string); (1, "x"%string)]).
Proof.
  exists ([Start (StorePost (1, "x"%string)); Step 0 Lost 0; Start (StorePost (1, "x"%string)); Step 1 Fine 0; Start (ReadPosts [1])] ++ replicate 4 (Step 2 Fine 0)).
  eexists. split; [apply play_run; vm_compute; reflexivity|]. split; [vm_compute; reflexivity|]. split; vm_compute; reflexivity.
Qed.

(** ** The hypotheses can be met *)
Example C91_nonvacuous : ∃ es1 w1 es2 w2 es1' w1' es2',
  around es1 w1 (ReadPosts [3; 1; 2]) es2 w2 ∧ answered w1 0 (StorePost (1, "x"%string)) Ok ∧ answered w1 1 (StorePost (2, "y"%string)) Ok ∧ own_ids w2 ∧
  w_cache w1 !! 2 = None ∧ answered w2 (length (w_calls w1)) (ReadPosts [3; 1; 2]) (Posts [(2, "y"%string); (1, "x"%string)]) ∧
  around es1' w1' (ReadPosts [3; 1; 2]) es2' w2 ∧ w_cache w1' !! 2 = Some (2, "y"%string) ∧
  answered w2 (length (w_calls w1')) (ReadPosts [3; 1; 2]) (Posts [(1, "x"%string); (2, "y"%string); (3, "z"%string)]) ∧ answered w1' 3 (StorePost (3, "z"%string)) Ok.
Proof.
  set (es1 := [Start (StorePost (1, "x"%string)); Start (StorePost (2, "y"%string)); Step 1 Fine 0; Step 0 Fine 0]).
  destruct (play es1 started) as [w1|] eqn:E1; [|by vm_compute in E1].
  exists es1. exists w1.
  exists ([Step 2 Fine 0; Step 2 Fine 0; Step 2 Fine 0; Step 2 Fine 0; Step 2 Fine 1; Step 2 Fine 0; Start (StorePost (3, "z"%string)); Step 3 Fine 0;
    Start (ReadPosts [3; 1; 2]); Step 4 Fine 0; Step 4 Fine 0; Step 4 Fine 0; Step 4 Fine 0; Step 4 Lost 0]).
  vm_compute in E1. injection E1 as <-. eexists.
  exists (es1 ++ [Start (ReadPosts [3; 1; 2]); Step 2 Fine 0; Step 2 Fine 0; Step 2 Fine 0; Step 2 Fine 0; Step 2 Fine 1; Step 2 Fine 0; Start (StorePost (3, "z"%string)); Step 3 Fine 0]).
  eexists. exists [Step 4 Fine 0; Step 4 Fine 0; Step 4 Fine 0; Step 4 Fine 0; Step 4 Lost 0].
  split. { split; [apply play_run; vm_compute; reflexivity|]. eexists. split; [reflexivity|]. apply play_run. vm_compute. reflexivity. }
  split; [reflexivity|]. split; [reflexivity|]. split.
  { intros t1 t2 p1 p2 th1 th2 H1 H2. do 5 (destruct t1 as [|t1]; [do 5 (destruct t2 as [|t2]; [simpl in H1, H2; simplify_eq; simpl; done|]); done|]). done. }
  split; [vm_compute; reflexivity|]. split; [reflexivity|].
  split. { split; [apply play_run; vm_compute; reflexivity|]. eexists. split; [reflexivity|]. apply play_run. vm_compute. reflexivity. }
  split; [vm_compute; reflexivity|]. split; reflexivity.
Qed.
Example C91_machines_nonvacuous : UniqueId_Spec.machine 0 ∧ UniqueId_Spec.gets 0 [1700000012345] 0 1700000012345 0 1700000012336 ∧
  UniqueId_Spec.machine 4660 ∧ UniqueId_Spec.gets 4660 [1700000012345] 0 1700000012345 0 81981286966990896.
Proof.
  split; [by vm_compute|]. split. { split; [done|]. split; [|by vm_compute]. split; [simpl; lia|]. split; [|simpl; lia]. intros k Hk. destruct k as [|k]; [done|lia]. }
  split; [by vm_compute|]. split; [done|]. split; [|by vm_compute]. split; [simpl; lia|]. split; [|simpl; lia]. intros k Hk. destruct k as [|k]; [done|lia].
Qed.
Print Assumptions C91_post_sound.
Print Assumptions C91_post_complete.
Print Assumptions C91_posts_sound.
Print Assumptions C91_posts_complete.
Print Assumptions C91_posts_once.
Print Assumptions C91_cache_invisible.
Print Assumptions C91_machines.
Print Assumptions C91_large_id_refuted.
Print Assumptions C91_other_id_refuted.
Print Assumptions C91_order_refuted.
Print Assumptions C91_retry_refuted.
