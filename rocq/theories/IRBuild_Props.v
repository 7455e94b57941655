(** * Properties of artifact building (C12) and of IR traversal (C13) *)
From Verif Require Import IRBuild_Model IRBuild_Spec IRBuild_Proof.
From Coq Require Import Lia.

(** [bs] is the registry after [regs] in some map order. *)
Definition some_order (regs bs : list (nat * bytes)) : Prop := bs ≡ₚ map_to_list (registered regs).

Lemma some_order_elem regs bs t b : some_order regs bs → (t, b) ∈ bs ↔ registered regs !! t = Some b.
Proof. unfold some_order. intros ->. by rewrite elem_of_map_to_list. Qed.

(** A successful build hands every node to exactly one build function or generator, and as often as it
    occurs in the application. *)
Theorem C12_built_exactly_once : ∀ assignable ok isdir mk regs bs ns h,
  some_order regs bs → build_all assignable ok isdir mk bs ns = (h, true) → built h ≡ₚ ns.
Proof. intros until 1. intros HB. apply build_all_spec in HB as (_&_&_&_&HB&_). by apply HB. Qed.
Print Assumptions C12_built_exactly_once.

(** A failing build has not built a node more often either. *)
Theorem C12_never_built_twice : ∀ assignable ok isdir mk regs bs ns h res,
  some_order regs bs → build_all assignable ok isdir mk bs ns = (h, res) → built h ⊆+ ns.
Proof. intros until 1. intros HB. by apply build_all_spec in HB as (_&HB&_). Qed.
Print Assumptions C12_never_built_twice.

(** Nodes go only where they may: to the builder that was registered last for a type they are assignable
    to, or, for generators that no builder takes, to themselves with the directory of their clean name. *)
Theorem C12_right_builder : ∀ assignable ok isdir mk regs bs ns h res a,
  some_order regs bs → build_all assignable ok isdir mk bs ns = (h, res) → a ∈ h →
  match a with
  | ABuild t b l => last_registered regs t b ∧ l ≠ [] ∧ ∀ n, n ∈ l → assignable (in_type n) t = true
  | ADir d => ∃ n, n ∈ ns ∧ in_gen n = true ∧ ¬ has_builder assignable (registered regs) n ∧ d = clean_name (in_name n)
  | AGen n d => in_gen n = true ∧ ¬ has_builder assignable (registered regs) n ∧ d = clean_name (in_name n)
  end.
Proof.
  intros assignable ok isdir mk regs bs ns h res a O H Ha. apply build_all_spec in H as (_&_&H&_). specialize (H _ Ha).
  assert (∀ n, nobody assignable bs n → ¬ has_builder assignable (registered regs) n) as NB.
  { intros n N (t & b & E & As). apply (some_order_elem _ _ _ _ O) in E. by rewrite (N _ _ E) in As. }
  destruct a as [t b l|d|n d].
  - destruct H as (H1 & H2 & H3). split_and!; [|done|done]. by apply registered_last, (some_order_elem _ _ _ _ O).
  - destruct H as (n & H1 & H2 & H3 & H4). exists n. split_and!; auto.
  - destruct H as (H2 & H3 & H4). split_and!; auto.
Qed.
Print Assumptions C12_right_builder.

(** The build succeeds exactly if the output directory could be created anew, no call failed and every node
    has a builder or is a generator: no node is silently dropped, and there are no other errors. *)
Theorem C12_succeeds_iff : ∀ assignable ok isdir mk regs bs ns h res,
  some_order regs bs → build_all assignable ok isdir mk bs ns = (h, res) →
  res = true ↔ isdir = false ∧ mk = true ∧ (∀ pre a post, h = pre ++ a :: post → ok pre a = true) ∧
               (∀ n, n ∈ ns → has_builder assignable (registered regs) n ∨ in_gen n = true).
Proof.
  intros assignable ok isdir mk regs bs ns h res O H. apply build_all_spec in H as (H1 & _ & _ & H4 & _ & H6).
  assert (∀ n, (∃ t b, (t, b) ∈ bs ∧ assignable (in_type n) t = true) ↔ has_builder assignable (registered regs) n) as HB.
  { intros n. unfold has_builder. setoid_rewrite (some_order_elem _ _ _ _ O). done. }
  setoid_rewrite HB in H6. split.
  - intros ->. destruct H1 as [[-> ->]|(_ & ? & _)]; [|done]. destruct H4 as [H4|[_ ?]]; [|done].
    split_and!; [done|done|done|]. by apply H6.
  - intros (-> & -> & A & N). by apply H6.
Qed.
Print Assumptions C12_succeeds_iff.

(** The first call that fails is the last one, and the build fails. *)
Theorem C12_stops_at_the_first_error : ∀ assignable ok isdir mk regs bs ns h res pre a post,
  some_order regs bs → build_all assignable ok isdir mk bs ns = (h, res) →
  h = pre ++ a :: post → ok pre a = false → post = [] ∧ res = false.
Proof.
  intros assignable ok isdir mk regs bs ns h res pre a post O H E F. apply build_all_spec in H as (_ & _ & _ & H4 & _).
  destruct H4 as [H4|[(p & a' & E' & F' & A) ->]].
  - specialize (H4 _ _ _ E). cbn in H4. congruence.
  - split; [|done]. destruct post as [|x post _] using rev_ind; [done|exfalso].
    rewrite E' in E. rewrite app_comm_cons, app_assoc in E. apply app_inj_tail in E as [E _].
    specialize (A _ _ _ E). cbn in A. congruence.
Qed.
Print Assumptions C12_stops_at_the_first_error.

(** If no node is assignable to two registered types, then in a successful build each builder is called once
    with all its nodes in order, whatever the map order. *)
Theorem C12_each_builder_gets_all_its_nodes : ∀ assignable ok isdir mk regs bs ns h t b l,
  some_order regs bs →
  (∀ n t1 b1 t2 b2, n ∈ ns → registered regs !! t1 = Some b1 → registered regs !! t2 = Some b2 →
     assignable (in_type n) t1 = true → assignable (in_type n) t2 = true → t1 = t2) →
  build_all assignable ok isdir mk bs ns = (h, true) →
  ABuild t b l ∈ h ↔ registered regs !! t = Some b ∧ l = filter (λ n, assignable (in_type n) t = true) ns ∧ l ≠ [].
Proof.
  intros assignable ok isdir mk regs bs ns h t b l O U H. unfold build_all in H.
  destruct isdir; [done|]. destruct mk; [|done]. cbn in H.
  destruct (build_loop assignable ok [] bs ns) as [h1 r1] eqn:E1. destruct r1 as [ns1|]; [|done].
  destruct (build_generators ok h1 ns1) as [h2 r2] eqn:E2. destruct r2 as [ns2|]; [|done].
  injection H as -> _. apply build_loop_calls in E1 as (es & EE & C).
  - cbn in EE. subst h1. apply build_generators_spec in E2 as (e2 & -> & F2 & _).
    rewrite elem_of_app, C, (some_order_elem _ _ _ _ O). split; [|by left]. intros [?|Hin]; [done|exfalso].
    rewrite Forall_forall in F2. by apply F2 in Hin.
  - unfold some_order in O. rewrite O. apply NoDup_fst_map_to_list.
  - intros n t1 b1 t2 b2 Hn H1 H2. apply (some_order_elem _ _ _ _ O) in H1, H2. eauto.
Qed.
Print Assumptions C12_each_builder_gets_all_its_nodes.

(** An application with two Go services, a container, a configuration node and a workload generator. *)
Definition ex_assignable (nt t : nat) : bool := bool_decide (nt = t).
Definition b_ (s : string) : bytes := String.list_ascii_of_string s.
Definition ex_regs : list (nat * bytes) := [(0, b_ "ignore_irconfig"); (1, b_ "goproc"); (2, b_ "containerdeployment"); (0, b_ "environment")].
Definition ex_bs : list (nat * bytes) := [(2, b_ "containerdeployment"); (0, b_ "environment"); (1, b_ "goproc")].
Definition ex_ns : list inode :=
  [INode 10 (b_ "a") 1 true; INode 11 (b_ "wlgen.proc") 7 true; INode 12 (b_ "db.ctr") 2 false; INode 13 (b_ "a.addr") 0 false; INode 14 (b_ "b") 1 true].
Example C12_nonvacuous :
  some_order ex_regs ex_bs ∧
  build_all ex_assignable (λ _ _, true) false true ex_bs ex_ns =
    ([ABuild 2 (b_ "containerdeployment") [INode 12 (b_ "db.ctr") 2 false]; ABuild 0 (b_ "environment") [INode 13 (b_ "a.addr") 0 false];
      ABuild 1 (b_ "goproc") [INode 10 (b_ "a") 1 true; INode 14 (b_ "b") 1 true];
      ADir (b_ "wlgen_proc"); AGen (INode 11 (b_ "wlgen.proc") 7 true) (b_ "wlgen_proc")], true).
Proof.
  split; [|vm_compute; reflexivity]. unfold some_order.
  transitivity (map_to_list (<[2 := b_ "containerdeployment"]> (<[0 := b_ "environment"]> (<[1 := b_ "goproc"]> (∅ : registry))))).
  { symmetry. rewrite !map_to_list_insert, map_to_list_empty by done. done. }
  match goal with |- map_to_list ?a ≡ₚ map_to_list ?b => replace b with a; [done|] end. apply (bool_decide_unpack _). vm_compute. exact I.
Qed.

(** A node that is assignable to two registered types goes to whichever builder Go's map order brings first. *)
Theorem C12_independent_of_map_order_refuted : ∃ assignable regs bs1 bs2 ns h1 h2,
  some_order regs bs1 ∧ some_order regs bs2 ∧
  build_all assignable (λ _ _, true) false true bs1 ns = (h1, true) ∧
  build_all assignable (λ _ _, true) false true bs2 ns = (h2, true) ∧
  ∃ t1 t2 b1 b2 n, t1 ≠ t2 ∧ h1 = [ABuild t1 b1 [n]] ∧ h2 = [ABuild t2 b2 [n]].
Proof.
  exists (λ _ _, true), [(1, b_ "goproc"); (2, b_ "linux")], [(1, b_ "goproc"); (2, b_ "linux")], [(2, b_ "linux"); (1, b_ "goproc")], [INode 10 (b_ "a") 5 false].
  eexists _, _. split_and!.
  - unfold some_order, registered, register. cbn [fold_left fst snd]. rewrite !map_to_list_insert, map_to_list_empty by done. constructor.
  - unfold some_order, registered, register. cbn [fold_left fst snd]. rewrite !map_to_list_insert, map_to_list_empty by done. done.
  - vm_compute; reflexivity.
  - vm_compute; reflexivity.
  - exists 1, 2, (b_ "goproc"), (b_ "linux"), (INode 10 (b_ "a") 5 false). done.
Qed.
Print Assumptions C12_independent_of_map_order_refuted.

(** Generators whose names differ but have the same clean name generate into the same directory, without an error. *)
Theorem C12_generators_have_their_own_directories_refuted : ∃ ns h n1 n2 d,
  build_all ex_assignable (λ _ _, true) false true [] ns = (h, true) ∧
  AGen n1 d ∈ h ∧ AGen n2 d ∈ h ∧ in_name n1 ≠ in_name n2.
Proof.
  exists [INode 1 (b_ "a.b") 7 true; INode 2 (b_ "a_b") 7 true]. eexists _, (INode 1 (b_ "a.b") 7 true), (INode 2 (b_ "a_b") 7 true), (b_ "a_b").
  split_and!; [vm_compute; reflexivity| | |done].
  - right; left. - do 3 right; left.
Qed.
Print Assumptions C12_generators_have_their_own_directories_refuted.

(** C13. The traversal lists the nodes at all places of the tree, every place once, parents before children
    and earlier children before later ones. *)
Theorem C13_preorder : ∀ A (t : irtree A), ∃ ps,
  Some <$> get_nodes t = at_place t <$> ps ∧ StronglySorted before ps ∧ NoDup ps ∧ ∀ p, p ∈ ps ↔ is_Some (at_place t p).
Proof.
  intros A t. exists (places t). split_and!; [apply places_labels|apply places_sorted|apply sorted_NoDup, places_sorted|apply places_elem].
Qed.
Print Assumptions C13_preorder.

(** No node is listed twice if none is at two places. *)
Theorem C13_no_duplicates : ∀ A (t : irtree A),
  (∀ p q a, at_place t p = Some a → at_place t q = Some a → p = q) → NoDup (get_nodes t).
Proof. intros. by apply places_unique_labels. Qed.
Print Assumptions C13_no_duplicates.

(** A node that two namespaces share is listed twice. *)
Theorem C13_no_duplicates_for_shared_nodes_refuted : ∃ t : irtree nat, ¬ NoDup (get_nodes t).
Proof. exists (IRT 0 (Some [IRT 1 (Some [IRT 3 None]); IRT 2 (Some [IRT 3 None])])). intros N. apply (bool_decide_pack _) in N. vm_compute in N. done. Qed.
Print Assumptions C13_no_duplicates_for_shared_nodes_refuted.

(** Split, FilterNodes (and Filter) and Remove: the two results of Split are the only way to take the list apart
    into nodes of the type and other ones, without loss or reordering; the others return one of them. *)
Theorem C13_filters_partition : ∀ A (isT : A → bool) ns rem ms,
  split_nodes isT ns = (rem, ms) ↔
  shuffle rem ms ns ∧ (∀ n, n ∈ rem → isT n = false) ∧ (∀ n, n ∈ ms → isT n = true).
Proof.
  intros A isT ns rem ms. rewrite split_nodes_eq. rewrite <-!Forall_forall. split.
  - intros [= <- <-]. split_and!; [apply shuffle_filters|apply remove_nodes_all|apply filter_nodes_all].
  - intros (S & F1 & F2). destruct (shuffle_unique isT ns rem ms S F1 F2) as [-> ->]. done.
Qed.
Print Assumptions C13_filters_partition.

Theorem C13_filters_agree : ∀ A (isT : A → bool) ns,
  remove_nodes isT ns = (split_nodes isT ns).1 ∧ filter_nodes isT ns = (split_nodes isT ns).2.
Proof. intros. by rewrite split_nodes_eq. Qed.
Print Assumptions C13_filters_agree.

(** Visited answers false the first time it is called with a name, and true from then on. *)
Theorem C13_visited_first_time : ∀ xs i x, xs !! i = Some x →
  visit_all ∅ xs !! i = Some (bool_decide (x ∈ take i xs)).
Proof.
  intros xs i x H. rewrite (visit_all_spec xs ∅ i x H). f_equal. apply bool_decide_ext. split; [intros [?%elem_of_empty|?]; done|by right].
Qed.
Print Assumptions C13_visited_first_time.

Example C13_nonvacuous :
  get_nodes (IRT 0 (Some [IRT 1 None; IRT 2 (Some [IRT 3 (Some []); IRT 4 None]); IRT 5 None])) = [0; 1; 2; 3; 4; 5] ∧
  split_nodes (λ n, Nat.even n) [1; 2; 3; 5; 4] = ([1; 3; 5], [2; 4]) ∧
  visit_all ∅ [b_ "m"; b_ "n"; b_ "m"; b_ "m"] = [false; false; true; true].
Proof. split_and!; vm_compute; reflexivity. Qed.
