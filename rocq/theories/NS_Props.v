(** * Properties of building the IR (C05-C07) *)
From Verif Require Import NS_Spec NS_Proof NS_Edges NS_Queue.
From Verif Require Wiring_Model Wiring_Spec Wiring_Proof.

(** The definitions of a wiring spec, as the namespaces see them. *)
Definition wiring_of {B V} (fuel : nat) (s : Wiring_Model.spec nat B V) : wiring := λ name,
  match Wiring_Model.get_def fuel s name with
  | Some (Some d) => match Wiring_Model.wd_type d with Some t => Some (WDef (Wiring_Model.wd_name d) t (Wiring_Model.wo_proxy (Wiring_Model.wd_opts d))) | None => None end
  | _ => None
  end.
(** The guard [canonical] of the theorems below holds of every wiring spec. *)
Theorem C05_wiring_specs_are_canonical : ∀ {B V} fuel (h : list (Wiring_Model.op nat B V)), canonical (wiring_of fuel (Wiring_Model.run h)).
Proof.
  intros B V fuel h name d. unfold wiring_of. destruct (Wiring_Model.get_def fuel (Wiring_Model.run h) name) as [[x|]|] eqn:Hg; try done.
  destruct (Wiring_Model.wd_type x) as [t|] eqn:Ht; [|done]. intros [= <-]. cbn [w_name].
  assert (Wiring_Model.get_def fuel (Wiring_Model.run h) (Wiring_Model.wd_name x) = Some (Some x)) as ->; [|by rewrite Ht].
  unfold Wiring_Model.get_def in *. destruct (Wiring_Model.resolve_alias fuel (Wiring_Model.run h) name) as [m|] eqn:Hr; [|done]. injection Hg as Hg.
  pose proof (Wiring_Proof.name_inv h m x Hg) as Hn. rewrite Hn.
  pose proof (Wiring_Proof.run_excl h m) as Hex. destruct fuel as [|f]; [done|]. simpl.
  destruct (Wiring_Model.sp_aliases (Wiring_Model.run h) !! m) as [y|] eqn:Ha; [|by rewrite Hg]. exfalso. naive_solver.
Qed.
Print Assumptions C05_wiring_specs_are_canonical.

(** An example: a process whose namespace (number 1) holds the services (type 1) in it; a service with an
    alias "x", which uses a database outside of the process. *)
Definition ex_def : wiring := λ name,
  if bool_decide (name = "proc") then Some (WDef "proc" 0 false) else
  if bool_decide (name = "a" ∨ name = "x") then Some (WDef "a" 1 false) else
  if bool_decide (name = "db") then Some (WDef "db" 2 false) else
  if bool_decide (name = "pdb") then Some (WDef "pdb" 2 true) else None.
Lemma ex_canonical : canonical ex_def.
Proof. intros name d. unfold ex_def. repeat case_bool_decide; try done; intros [= <-]; simpl; repeat case_bool_decide; naive_solver. Qed.
Definition services (t : nat) : bool := bool_decide (t = 1).
Definition n_proc := Node 0 "proc" false 0. Definition n_a := Node 1 "a" false 1. Definition n_db := Node 2 "db" false 2.
Definition ex_run : list label :=
  [LNext; LDerive 0 "c" services; LGet 1 "x" true; LGet 1 "db" true; LReturn (Some n_db); LReturn (Some n_a); LDefer false; LGet 1 "a" true;
   LReturn (Some n_proc); LNext; LDefer true; LEnd true; LNext; LEnd true; LNext].
Definition ex_trace : list event :=
  [EDefer 0 true; ERun 0; EBuild 0 "proc"; EBuild 1 "a"; EBuild 0 "db"; EBuilt 0 "db" n_db; ENode 0 "db" n_db; EGot 0 "db" (Some n_db); EEdge 1 "db" n_db; EGot 1 "db" (Some n_db);
   EBuilt 1 "a" n_a; ENode 1 "a" n_a; EGot 1 "a" (Some n_a); EGot 1 "x" (Some n_a); EDefer 1 false; EGot 1 "a" (Some n_a);
   EBuilt 0 "proc" n_proc; ENode 0 "proc" n_proc; EGot 0 "proc" (Some n_proc); EEnd 0 true; ERun 1; EDefer 2 true; EEnd 1 true; ERun 2; EEnd 2 true].
Lemma ex_runs : ∃ s, execution ex_def ["proc"] ex_run s ∧ trace s = ex_trace ∧ status_of s = Done ∧ no_put ex_run.
Proof.
  eexists. split; [vm_compute; reflexivity|]. split; [reflexivity|]. split; [reflexivity|]. intros n name v Hin. unfold ex_run in Hin. mem.
Qed.
(** A decision procedure for [acyclic] on closed runs. *)
Fixpoint acyclic_b (getdef : wiring) (s : state) (ls : list label) : bool :=
  bool_decide (NoDup (building s)) && match ls with [] => true | x :: ls => match step getdef s x with Some s' => acyclic_b getdef s' ls | None => true end end.
Lemma acyclic_b_sound getdef reqs ls : acyclic_b getdef (init reqs) ls = true → acyclic getdef reqs ls.
Proof.
  intros H ls1 ls2 s -> Hr. revert H Hr. generalize (init reqs). induction ls1 as [|x ls1 IH]; intros s0 H Hr.
  - injection Hr as <-. destruct ls2; simpl in H; apply andb_true_iff in H as [H _]; by apply bool_decide_eq_true in H.
  - simpl in *. apply andb_true_iff in H as [_ H]. destruct (step getdef s0 x); [|done]. by eapply IH.
Qed.
Lemma ex_acyclic : acyclic ex_def ["proc"] ex_run.
Proof. apply acyclic_b_sound. vm_compute. reflexivity. Qed.

(** C05. In a run of BuildIR in which no node is asked for while it is being built, the build function of a
    node returns at most once in a namespace ... *)
Theorem C05_built_once : ∀ getdef reqs ls s i1 i2 n name v1 v2,
  canonical getdef → execution getdef reqs ls s → acyclic getdef reqs ls → no_put ls →
  trace s !! i1 = Some (EBuilt n name v1) → trace s !! i2 = Some (EBuilt n name v2) → i1 = i2.
Proof. exact built_once. Qed.
Print Assumptions C05_built_once.
(** ... a node that Get or Instantiate returns is the one that was built, by the definition the name stands
    for, in the nearest namespace that accepts it ... *)
Theorem C05_got_was_built : ∀ getdef reqs ls s n name v,
  canonical getdef → execution getdef reqs ls s → acyclic getdef reqs ls → no_put ls →
  EGot n name (Some v) ∈ trace s → ∃ j c, home getdef (nss s) n name j c ∧ EBuilt j c v ∈ trace s.
Proof. exact got_from_home. Qed.
Print Assumptions C05_got_was_built.
(** ... so all names and namespaces that lead to the same definition in the same namespace get the same node ... *)
Theorem C05_same_node : ∀ getdef reqs ls s n name v n' name' v' j c,
  canonical getdef → execution getdef reqs ls s → acyclic getdef reqs ls → no_put ls →
  EGot n name (Some v) ∈ trace s → EGot n' name' (Some v') ∈ trace s →
  home getdef (nss s) n name j c → home getdef (nss s) n' name' j c → v = v'.
Proof. exact got_same. Qed.
Print Assumptions C05_same_node.
(** ... and asking again gives it again, and does nothing else. *)
Theorem C05_got_again : ∀ getdef reqs ls s n name v edge s',
  canonical getdef → execution getdef reqs ls s → acyclic getdef reqs ls → no_put ls →
  EGot n name (Some v) ∈ trace s → step getdef s (LGet n name edge) = Some s' → s' = emit [EGot n name (Some v)] s.
Proof. exact got_again. Qed.
Print Assumptions C05_got_again.
Example C05_nonvacuous :
  ∃ s, execution ex_def ["proc"] ex_run s ∧ acyclic ex_def ["proc"] ex_run ∧ no_put ex_run ∧ EGot 1 "x" (Some n_a) ∈ trace s ∧ EGot 1 "a" (Some n_a) ∈ trace s ∧ EBuilt 1 "a" n_a ∈ trace s ∧
       home ex_def (nss s) 1 "x" 1 "a" ∧ home ex_def (nss s) 1 "db" 0 "db".
Proof.
  destruct ex_runs as (s & Hr & Ht & _ & Hp). exists s. split; [done|]. split; [apply ex_acyclic|]. split; [done|]. rewrite Ht. unfold ex_trace. split; [mem|]. split; [mem|]. split; [mem|].
  vm_compute in Hr. injection Hr as <-. cbn [nss]. split.
  - exists (WDef "a" 1 false). split; [done|]. split; [done|]. eapply near_here; [reflexivity|reflexivity].
  - exists (WDef "db" 2 false). split; [done|]. split; [done|]. eapply near_up; [reflexivity|reflexivity|reflexivity|]. eapply near_here; [reflexivity|reflexivity].
Qed.
(** Finding: a node that asks for itself while it is built (a cyclic dependency) is built again, and different
    callers get different nodes.  (A build function that always asks for itself never ends.) *)
Theorem C05_cycle_refuted : ∃ getdef reqs ls s v1 v2, canonical getdef ∧ execution getdef reqs ls s ∧ no_put ls ∧ v1 ≠ v2 ∧
  EBuilt 0 "a" v1 ∈ trace s ∧ EBuilt 0 "a" v2 ∈ trace s ∧ EGot 0 "a" (Some v1) ∈ trace s ∧ EGot 0 "a" (Some v2) ∈ trace s.
Proof.
  exists ex_def, ["a"], [LNext; LGet 0 "a" true; LReturn (Some (Node 7 "a" false 1)); LReturn (Some (Node 8 "a" false 1))]. eexists. exists (Node 7 "a" false 1), (Node 8 "a" false 1).
  split; [apply ex_canonical|]. split; [vm_compute; reflexivity|]. split; [intros n name v; mem|]. split; [done|]. simpl. split_and!; mem.
Qed.
Print Assumptions C05_cycle_refuted.
(** Finding: Put replaces a node that has been got. *)
Theorem C05_put_refuted : ∃ getdef reqs ls s v1 v2, canonical getdef ∧ execution getdef reqs ls s ∧ acyclic getdef reqs ls ∧ v1 ≠ v2 ∧
  EGot 0 "a" (Some v1) ∈ trace s ∧ EGot 0 "a" (Some v2) ∈ trace s.
Proof.
  exists ex_def, ["proc"], [LNext; LGet 0 "a" true; LReturn (Some (Node 7 "a" false 1)); LPut 0 "a" (Node 8 "a" false 1); LGet 0 "a" true]. eexists. exists (Node 7 "a" false 1), (Node 8 "a" false 1).
  split; [apply ex_canonical|]. split; [vm_compute; reflexivity|]. split; [apply acyclic_b_sound; vm_compute; reflexivity|]. split; [done|]. simpl. split_and!; mem.
Qed.
Print Assumptions C05_put_refuted.
(** Finding: getting an alias of a node that fails to build is an error; getting it again panics. *)
Theorem C05_failed_alias_refuted : ∃ getdef reqs ls s, canonical getdef ∧ execution getdef reqs ls s ∧ acyclic getdef reqs ls ∧ no_put ls ∧
  EGot 0 "x" None ∈ trace s ∧ status_of s = Panicked.
Proof.
  exists ex_def, ["proc"], [LNext; LGet 0 "x" true; LReturn None; LGet 0 "x" true]. eexists.
  split; [apply ex_canonical|]. split; [vm_compute; reflexivity|]. split; [apply acyclic_b_sound; vm_compute; reflexivity|]. split; [intros n name v; mem|]. split; [simpl; mem|done].
Qed.
Print Assumptions C05_failed_alias_refuted.

(** C06. Getting a name leads to its definition in the nearest namespace that accepts it: either that is
    being built now, or a node is returned (the third case is the finding above). *)
Theorem C06_get_leads_to_nearest : ∀ getdef reqs ls s n name edge s' j c,
  canonical getdef → execution getdef reqs ls s → step getdef s (LGet n name edge) = Some s' → home getdef (nss s) n name j c →
  (trace s' = trace s ++ [EBuild j c] ∧ building s' = (j, c) :: building s) ∨
  (∃ v es, trace s' = trace s ++ es ∧ EGot n name (Some v) ∈ es ∧ (∀ j c, EBuild j c ∉ es) ∧ building s' = building s) ∨
  status_of s' = Panicked.
Proof.
  intros getdef reqs ls s n name edge s' j c Hcan Hr Hs Hh. pose proof (wf_run _ _ _ _ Hcan Hr) as Hw. unfold step in Hs. destruct (status_of s); try done.
  destruct (user_code s && bool_decide (n < length (nss s))) eqn:Hu; [|done]. injection Hs as <-. apply andb_true_iff in Hu as [_ Hn%bool_decide_eq_true]. by eapply call_leads.
Qed.
Print Assumptions C06_get_leads_to_nearest.
(** A namespace builds, and holds, only nodes of definitions whose type it accepts, and no proxies. *)
Theorem C06_nodes_are_accepted : ∀ getdef reqs ls s n name,
  canonical getdef → execution getdef reqs ls s → no_put ls →
  (EBuild n name ∈ trace s → ∃ d, getdef name = Some d ∧ w_name d = name ∧ accepts_type s n (w_type d)) ∧
  (∀ v, ENode n name v ∈ trace s → EBuilt n name v ∈ trace s ∧ ∃ d, getdef name = Some d ∧ w_name d = name ∧ w_proxy d = false ∧ accepts_type s n (w_type d)).
Proof.
  intros getdef reqs ls s n name Hcan Hr Hp. pose proof (h_inv _ _ _ _ (einvs_run _ _ _ _ Hcan Hr Hp)) as Hi. split.
  - apply (g_build _ _ _ _ Hi).
  - intros v Hin. by apply (g_node _ _ _ _ Hi) in Hin as [_ ?].
Qed.
Print Assumptions C06_nodes_are_accepted.
(** Edges are to nodes of rejected types, that are not metadata or proxies, and have been asked for by Get. *)
Theorem C06_edges_are_outer : ∀ getdef reqs ls s n name v,
  canonical getdef → execution getdef reqs ls s → no_put ls → EEdge n name v ∈ trace s →
  nd_meta v = false ∧ ∃ d, getdef name = Some d ∧ w_name d = name ∧ w_proxy d = false ∧ asked getdef reqs ls true d ∧ rejects_type s n (w_type d).
Proof.
  intros getdef reqs ls s n name v Hcan Hr Hp Hin. by apply (g_edge _ _ _ _ (h_inv _ _ _ _ (einvs_run _ _ _ _ Hcan Hr Hp))) in Hin as [_ ?].
Qed.
Print Assumptions C06_edges_are_outer.
(** In a namespace, a node name is added or made an edge to at most once. *)
Theorem C06_at_most_once : ∀ getdef reqs ls s n k i1 i2 e1 e2,
  canonical getdef → execution getdef reqs ls s → no_put ls →
  trace s !! i1 = Some e1 → trace s !! i2 = Some e2 → about n k e1 → about n k e2 → i1 = i2.
Proof.
  intros getdef reqs ls s n k i1 i2 e1 e2 Hcan Hr Hp. apply (count_le_one_eq (about n k)). apply (g_one _ _ _ _ (h_inv _ _ _ _ (einvs_run _ _ _ _ Hcan Hr Hp))).
Qed.
Print Assumptions C06_at_most_once.
(** A node that is got in a namespace is in it or has an edge from it, unless a node of that name that is
    metadata or a proxy, or was instantiated, has been got there. *)
Theorem C06_got_is_held_or_linked : ∀ getdef reqs ls s n name v,
  canonical getdef → execution getdef reqs ls s → no_put ls → EGot n name (Some v) ∈ trace s →
  (∀ name' v', EGot n name' (Some v') ∈ trace s → nd_name v' = nd_name v →
     nd_meta v' = false ∧ ∀ d, getdef name' = Some d → w_proxy d = false ∧ ¬ asked getdef reqs ls false d) →
  ∃ name' v', nd_name v' = nd_name v ∧ (ENode n name' v' ∈ trace s ∨ EEdge n name' v' ∈ trace s).
Proof.
  intros getdef reqs ls s n name v Hcan Hr Hp Hin Hall. pose proof (h_inv _ _ _ _ (einvs_run _ _ _ _ Hcan Hr Hp)) as Hi.
  pose proof (g_got _ _ _ _ Hi _ _ _ Hin) as Ha. destruct (g_added _ _ _ _ Hi _ _ Ha) as (name' & v' & Hv & Hg & Hc).
  destruct (Hall _ _ Hg Hv) as [Hm Hd]. exists name', v'. split; [done|]. destruct Hc as [?|[?|[?|(d & Hdd & Hx)]]]; [by left|by right|congruence|]. destruct (Hd _ Hdd) as [? ?]. destruct Hx; [congruence|done].
Qed.
Print Assumptions C06_got_is_held_or_linked.
Example C06_nonvacuous : ∃ s, execution ex_def ["proc"] ex_run s ∧ no_put ex_run ∧ ENode 1 "a" n_a ∈ trace s ∧ EEdge 1 "db" n_db ∈ trace s ∧ EGot 1 "db" (Some n_db) ∈ trace s ∧
  ∀ name' v', EGot 1 name' (Some v') ∈ trace s → nd_name v' = "db" → nd_meta v' = false ∧ ∀ d, ex_def name' = Some d → w_proxy d = false ∧ ¬ asked ex_def ["proc"] ex_run false d.
Proof.
  destruct ex_runs as (s & Hr & Ht & _ & Hp). exists s. split; [done|]. split; [done|]. rewrite Ht. unfold ex_trace. split; [mem|]. split; [mem|]. split; [mem|].
  intros name' v' Hin Hn.
  assert (Forall (λ e, match e with EGot 1 name' (Some v') => nd_name v' = "db" → name' = "db" ∧ v' = n_db | _ => True end) ex_trace) as Hall.
  { unfold ex_trace. repeat (constructor; [by try (intros [=]; split)|]). constructor. }
  rewrite Forall_forall in Hall. specialize (Hall _ Hin Hn) as [-> ->].
  split; [done|]. intros d [= <-]. split; [done|]. intros [(n & name & Hl & _)|[? _]]; [|done]. unfold ex_run in Hl. mem.
Qed.
(** Finding: a node that is first instantiated and then got has no edge, although it was got. *)
Theorem C06_instantiate_then_get_refuted : ∃ getdef reqs ls s, canonical getdef ∧ execution getdef reqs ls s ∧ acyclic getdef reqs ls ∧ no_put ls ∧
  LGet 1 "db" true ∈ ls ∧ EGot 1 "db" (Some n_db) ∈ trace s ∧ rejects_type s 1 2 ∧ ∀ name v, EEdge 1 name v ∉ trace s.
Proof.
  exists ex_def, ["proc"], [LNext; LDerive 0 "c" services; LGet 1 "db" false; LReturn (Some n_db); LGet 1 "db" true]. eexists.
  split; [apply ex_canonical|]. split; [vm_compute; reflexivity|]. split; [apply acyclic_b_sound; vm_compute; reflexivity|]. split; [intros n name v; mem|]. split; [mem|]. split; [simpl; mem|].
  split; [eexists; split; [reflexivity|reflexivity]|]. intros name v. simpl. mem.
Qed.
Print Assumptions C06_instantiate_then_get_refuted.
(** Finding: so has a node whose name was first met as that of a proxy. *)
Theorem C06_proxy_then_get_refuted : ∃ getdef reqs ls s, canonical getdef ∧ execution getdef reqs ls s ∧ acyclic getdef reqs ls ∧ no_put ls ∧
  (∀ n name, LGet n name false ∉ ls) ∧ EGot 1 "db" (Some n_db) ∈ trace s ∧ rejects_type s 1 2 ∧ ∀ name v, EEdge 1 name v ∉ trace s.
Proof.
  exists ex_def, ["proc"], [LNext; LDerive 0 "c" services; LGet 1 "pdb" true; LGet 0 "db" true; LReturn (Some n_db); LReturn (Some n_db); LGet 1 "db" true]. eexists.
  split; [apply ex_canonical|]. split; [vm_compute; reflexivity|]. split; [apply acyclic_b_sound; vm_compute; reflexivity|]. split; [intros n name v; mem|]. split; [intros n name; mem|]. split; [simpl; mem|].
  split; [eexists; split; [reflexivity|reflexivity]|]. intros name v. simpl. mem.
Qed.
Print Assumptions C06_proxy_then_get_refuted.
(** Finding: putting a node into a namespace that rejects it does not put it into the parent (the test for
    a parent is inverted). *)
Theorem C06_put_refuted : ∃ getdef reqs ls s, canonical getdef ∧ execution getdef reqs ls s ∧ LPut 1 "db" n_db ∈ ls ∧ rejects_type s 1 2 ∧ accepts_type s 0 2 ∧
  (∀ n name v, ENode n name v ∉ trace s) ∧ (∀ n name v, EEdge n name v ∉ trace s).
Proof.
  exists ex_def, ["proc"], [LNext; LDerive 0 "c" services; LPut 1 "db" n_db]. eexists.
  split; [apply ex_canonical|]. split; [vm_compute; reflexivity|]. split; [mem|]. split; [eexists; split; [reflexivity|reflexivity]|]. split; [eexists; split; [reflexivity|reflexivity]|].
  split; intros n name v; simpl; mem.
Qed.
Print Assumptions C06_put_refuted.

(** C07. When BuildIR succeeds, every deferred function has run exactly once and succeeded, and every
    requested node has been got. *)
Theorem C07_done_means_all_ran : ∀ getdef reqs ls s,
  canonical getdef → execution getdef reqs ls s → status_of s = Done →
  (∀ id fr, EDefer id fr ∈ trace s → ERun id ∈ trace s ∧ EEnd id true ∈ trace s ∧
     ∀ i1 i2, trace s !! i1 = Some (ERun id) → trace s !! i2 = Some (ERun id) → i1 = i2) ∧
  (∀ id, EEnd id false ∉ trace s) ∧
  (∀ name, name ∈ reqs → ∃ v, EGot 0 name (Some v) ∈ trace s).
Proof. exact done_all. Qed.
Print Assumptions C07_done_means_all_ran.
(** No function runs twice, even if BuildIR fails. *)
Theorem C07_run_once : ∀ getdef reqs ls s id, canonical getdef → execution getdef reqs ls s → ∀ i1 i2, trace s !! i1 = Some (ERun id) → trace s !! i2 = Some (ERun id) → i1 = i2.
Proof. exact run_once. Qed.
Print Assumptions C07_run_once.
(** It fails as soon as a deferred function fails, and only then. *)
Theorem C07_fails_at_first_error : ∀ getdef reqs ls s, canonical getdef → execution getdef reqs ls s →
  (status_of s = Failed → ∃ id, last (trace s) = Some (EEnd id false)) ∧
  (∀ id, EEnd id false ∈ trace s → status_of s = Failed ∧ last (trace s) = Some (EEnd id false)).
Proof. exact failed_last. Qed.
Print Assumptions C07_fails_at_first_error.
(** Deferred functions run one at a time. *)
Theorem C07_one_at_a_time : ∀ getdef reqs ls s x y, canonical getdef → execution getdef reqs ls s → before (ERun x) (ERun y) (trace s) →
  ∃ t1 t2, trace s = t1 ++ ERun y :: t2 ∧ EEnd x true ∈ t1.
Proof. exact one_at_a_time. Qed.
Print Assumptions C07_one_at_a_time.
(** A function deferred to the back runs after every function that is waiting then; one deferred to the
    front before every function that is waiting then. *)
Theorem C07_back_runs_after : ∀ getdef reqs ls1 s1 s1' ls2 s2 y fr z, canonical getdef → execution getdef reqs ls1 s1 →
  EDefer y fr ∈ trace s1 → ERun y ∉ trace s1 → step getdef s1 (LDefer false) = Some s1' → trace s1' = trace s1 ++ [EDefer z false] →
  run getdef s1' ls2 = Some s2 → ERun z ∈ trace s2 → before (ERun y) (ERun z) (trace s2).
Proof. exact back_after. Qed.
Print Assumptions C07_back_runs_after.
Theorem C07_front_runs_before : ∀ getdef reqs ls1 s1 s1' ls2 s2 y fr z, canonical getdef → execution getdef reqs ls1 s1 →
  EDefer y fr ∈ trace s1 → ERun y ∉ trace s1 → step getdef s1 (LDefer true) = Some s1' → trace s1' = trace s1 ++ [EDefer z true] →
  run getdef s1' ls2 = Some s2 → ERun y ∈ trace s2 → before (ERun z) (ERun y) (trace s2).
Proof. exact front_before. Qed.
Print Assumptions C07_front_runs_before.
(** The function of the i-th requested node is the i-th deferred one; it gets the node from the root
    namespace; and the requested nodes are got in the reverse of the order they are listed in. *)
Theorem C07_request_gets_its_node : ∀ getdef reqs ls s s' i name, canonical getdef → execution getdef reqs ls s → step getdef s LNext = Some s' →
  reqs !! i = Some name → ERun i ∉ trace s → ERun i ∈ trace s' →
  ∃ es, trace s' = trace s ++ ERun i :: es ∧
    ((∃ r, EGot 0 name r ∈ es) ∨ (∃ c, home getdef (nss s) 0 name 0 c ∧ es = [EBuild 0 c]) ∨ (es = [] ∧ status_of s' = Panicked)).
Proof. exact request_asks. Qed.
Print Assumptions C07_request_gets_its_node.
Theorem C07_requests_run_in_reverse : ∀ getdef reqs ls s i j, canonical getdef → execution getdef reqs ls s → i < j → j < length reqs →
  ERun i ∈ trace s → before (ERun j) (ERun i) (trace s).
Proof. exact requests_reversed. Qed.
Print Assumptions C07_requests_run_in_reverse.
Example C07_nonvacuous : ∃ s, execution ex_def ["proc"] ex_run s ∧ status_of s = Done ∧ EDefer 1 false ∈ trace s ∧ EDefer 2 true ∈ trace s ∧ before (ERun 1) (ERun 2) (trace s).
Proof.
  destruct ex_runs as (s & Hr & Ht & Hd & _). exists s. split; [done|]. split; [done|]. rewrite Ht. split; [unfold ex_trace; mem|]. split; [unfold ex_trace; mem|].
  exists (take 20 ex_trace), [EDefer 2 true; EEnd 1 true], [EEnd 2 true]. reflexivity.
Qed.
Example C07_order_nonvacuous : ∃ s1 s1' s2, execution ex_def ["a"; "db"] [LNext; LDefer true] s1 ∧ EDefer 0 true ∈ trace s1 ∧ ERun 0 ∉ trace s1 ∧
  step ex_def s1 (LDefer false) = Some s1' ∧ trace s1' = trace s1 ++ [EDefer 3 false] ∧
  run ex_def s1' [LReturn (Some n_db); LNext; LEnd true; LNext; LReturn (Some n_a); LNext; LEnd true; LNext] = Some s2 ∧ ERun 3 ∈ trace s2 ∧ ERun 0 ∈ trace s2 ∧ status_of s2 = Done.
Proof.
  eexists _, _, _. split; [vm_compute; reflexivity|]. split; [simpl; mem|]. split; [simpl; mem|]. split; [vm_compute; reflexivity|]. split; [reflexivity|]. split; [vm_compute; reflexivity|].
  split; [simpl; mem|]. split; [simpl; mem|reflexivity].
Qed.
