(** * Properties of the uniqueness check (C11) and of instantiating pointers and namespaces (C49) *)
From Verif Require Import Unique_Model Unique_Spec Unique_Proof NS_Proof.

(** C11. In a run of BuildIR in which no node depends on itself, all successful gets of a node that was
    required to be unique, through its check or an alias of it, lead to one namespace and one node, as far as
    the namespaces they are built in share a namespace of the granularity ([j], where the metadata is). *)
Theorem C11_unique_within_granularity : ∀ getdef check md name reqs ls u n1 n2 a1 a2 w1 w2 j j1 j2,
  check ≠ md → canonical getdef →
  urun getdef check md name (uinit reqs) ls = Some u → acyclic getdef reqs ls → solo getdef check reqs ls → no_put ls →
  EGot n1 a1 (Some w1) ∈ trace (base u) → EGot n2 a2 (Some w2) ∈ trace (base u) →
  home getdef (nss (base u)) n1 a1 j1 check → home getdef (nss (base u)) n2 a2 j2 check →
  home getdef (nss (base u)) j1 md j md → home getdef (nss (base u)) j2 md j md →
  j1 = j2 ∧ w1 = w2.
Proof. intros until 2. by eapply unique_get. Qed.
Print Assumptions C11_unique_within_granularity.

(** The check succeeds at most once altogether within the granularity. *)
Theorem C11_check_succeeds_once : ∀ getdef check md name reqs ls u i1 i2 n1 n2 w1 w2 j,
  check ≠ md → canonical getdef →
  urun getdef check md name (uinit reqs) ls = Some u → acyclic getdef reqs ls → solo getdef check reqs ls → no_put ls →
  trace (base u) !! i1 = Some (EBuilt n1 check w1) → trace (base u) !! i2 = Some (EBuilt n2 check w2) →
  home getdef (nss (base u)) n1 md j md → home getdef (nss (base u)) n2 md j md → i1 = i2.
Proof. intros until 2. by eapply unique. Qed.
Print Assumptions C11_check_succeeds_once.

(** What it returns is the node itself, as got in the same namespace. *)
Theorem C11_check_returns_the_node : ∀ getdef check md name reqs ls u n w,
  check ≠ md → canonical getdef →
  urun getdef check md name (uinit reqs) ls = Some u → acyclic getdef reqs ls → solo getdef check reqs ls →
  EBuilt n check w ∈ trace (base u) → EGot n name (Some w) ∈ trace (base u).
Proof. intros until 2. by eapply returns_the_node. Qed.
Print Assumptions C11_check_returns_the_node.

(** It does not fail without a reason: the metadata or the node could not be had, or the check has succeeded
    before with the same metadata. *)
Theorem C11_no_spurious_errors : ∀ getdef check md name reqs ls u n pr ws st d u',
  check ≠ md → canonical getdef →
  urun getdef check md name (uinit reqs) ls = Some u → acyclic getdef reqs ls → solo getdef check reqs ls → no_put ls →
  getdef md = Some d → w_name d = md →
  stack (base u) = FBuild n check pr ws :: st → ustep getdef check md name u (LReturn None) = Some u' →
  EGot n md None ∈ trace (base u) ∨ EGot n name None ∈ trace (base u) ∨
  (∃ n' w' v' v, EBuilt n' check w' ∈ trace (base u) ∧ EGot n' md (Some v') ∈ trace (base u) ∧ EGot n md (Some v) ∈ trace (base u) ∧ nd_id v' = nd_id v).
Proof.
  intros getdef check md name reqs ls u n pr ws st d u' H1 H2 H3 H4 H5 H6 H7 H8 H9 H10.
  eapply fails_for_a_reason; try done. unfold runs_check. eauto.
Qed.
Print Assumptions C11_no_spurious_errors.

(** Two processes that both use a service which is not exposed by RPC: the first one that is built gets it,
    the other one gets an error. *)
Definition ex_def : wiring := λ x,
  if bool_decide (x = "p1" ∨ x = "p2") then Some (WDef x 0 false) else
  if bool_decide (x = "svc" ) then Some (WDef "svc" 1 false) else
  if bool_decide (x = "svc.dst" ∨ x = "svc.uniqueness_check") then Some (WDef "svc.uniqueness_check" 1 false) else
  if bool_decide (x = "svc.visibility") then Some (WDef x 2 false) else None.
Definition services (t : nat) : bool := bool_decide (t = 1).
Definition n_md := Node 10 "svc.visibility" true 2. Definition n_svc := Node 11 "svc" false 1. Definition n_p2 := Node 12 "p2" false 0.
Definition ex_run1 : list label :=
  [LNext; LDerive 0 "c2" services; LGet 1 "svc.dst" true; LGet 1 "svc.visibility" true; LReturn (Some n_md); LGet 1 "svc" true; LReturn (Some n_svc);
   LReturn (Some n_svc); LGet 1 "svc.dst" true; LReturn (Some n_p2); LNext; LDerive 0 "c1" services; LGet 2 "svc.dst" true; LGet 2 "svc.visibility" true].
Definition ex_run : list label := ex_run1 ++ [LReturn None; LReturn None].
Notation ex_urun := (urun ex_def "svc.uniqueness_check" "svc.visibility" "svc" (uinit ["p1"; "p2"])).
Lemma ex_canonical : canonical ex_def.
Proof. intros name d. unfold ex_def. repeat case_bool_decide; try done; intros [= <-]; simpl; repeat case_bool_decide; naive_solver. Qed.
Fixpoint calm_b (getdef : wiring) (check : string) (s : state) (ls : list label) : bool :=
  bool_decide (NoDup (building s)) && bool_decide (length (filter (λ x, x.2 = check) (building s)) ≤ 1) &&
  match ls with [] => true | x :: ls => match step getdef s x with Some s' => calm_b getdef check s' ls | None => true end end.
Lemma calm_b_sound getdef check reqs ls : calm_b getdef check (init reqs) ls = true → acyclic getdef reqs ls ∧ solo getdef check reqs ls.
Proof.
  intros H. assert (∀ ls1 ls2 s, ls = ls1 ++ ls2 → run getdef (init reqs) ls1 = Some s → NoDup (building s) ∧ length (filter (λ x, x.2 = check) (building s)) ≤ 1) as Hg.
  { intros ls1 ls2 s -> Hr. revert H Hr. generalize (init reqs). induction ls1 as [|x ls1 IH]; intros s0 H Hr.
    - injection Hr as <-. destruct ls2; simpl in H; rewrite !andb_true_iff in H; destruct H as [[H1 H2] _]; by apply bool_decide_eq_true in H1, H2.
    - simpl in *. rewrite !andb_true_iff in H. destruct H as [_ H]. destruct (step getdef s0 x); [|done]. by eapply IH. }
  split.
  - intros ls1 ls2 s E Hr. by destruct (Hg _ _ _ E Hr).
  - intros ls1 ls2 s n1 n2 E Hr H1 H2. destruct (Hg _ _ _ E Hr) as [_ Hl].
    assert ((n1, check) ∈ filter (λ x, x.2 = check) (building s)) as G1 by (by apply elem_of_list_filter).
    assert ((n2, check) ∈ filter (λ x, x.2 = check) (building s)) as G2 by (by apply elem_of_list_filter).
    destruct (filter (λ x, x.2 = check) (building s)) as [|y [|]]; simpl in Hl; [by apply elem_of_nil in G1| |lia].
    apply elem_of_list_singleton in G1, G2. congruence.
Qed.
Example C11_nonvacuous :
  canonical ex_def ∧ acyclic ex_def ["p1"; "p2"] ex_run ∧ solo ex_def "svc.uniqueness_check" ["p1"; "p2"] ex_run ∧ no_put ex_run ∧
  ∃ u, ex_urun ex_run = Some u ∧ EGot 1 "svc.dst" (Some n_svc) ∈ trace (base u) ∧ EGot 2 "svc.dst" None ∈ trace (base u) ∧ status_of (base u) = Failed ∧
    home ex_def (nss (base u)) 1 "svc.dst" 1 "svc.uniqueness_check" ∧ home ex_def (nss (base u)) 2 "svc.dst" 2 "svc.uniqueness_check" ∧
    home ex_def (nss (base u)) 1 "svc.visibility" 0 "svc.visibility" ∧ home ex_def (nss (base u)) 2 "svc.visibility" 0 "svc.visibility".
Proof.
  destruct (calm_b_sound ex_def "svc.uniqueness_check" ["p1"; "p2"] ex_run) as [H1 H2]; [vm_compute; reflexivity|].
  split; [apply ex_canonical|]. split; [done|]. split; [done|]. split.
  - intros n x v Hin. unfold ex_run, ex_run1 in Hin. simpl in Hin. rewrite !elem_of_cons, elem_of_nil in Hin. naive_solver.
  - eexists. split; [vm_compute; reflexivity|]. cbn [base trace nss status_of].
    split; [set_solver|]. split; [set_solver|]. split; [done|].
    assert (∀ (l : list nspace) (t n j : nat), nearest l t n j → ∀ d x y, ex_def x = Some d → y = w_name d → w_type d = t → home ex_def l n x j y) as Hm.
    { intros l t n j Hn d x y Hd -> <-. by exists d. }
    split_and!; (eapply Hm; [|reflexivity|reflexivity|reflexivity]).
    + eapply near_here; reflexivity.
    + eapply near_here; reflexivity.
    + eapply near_up; [reflexivity|reflexivity|reflexivity|]. eapply near_here; reflexivity.
    + eapply near_up; [reflexivity|reflexivity|reflexivity|]. eapply near_here; reflexivity.
Qed.

(** C49. The deferred function of a namespace ends well exactly if it got all the children that were added to
    it, in the order they were added; otherwise it returns an error at the first one it could not get. *)
Theorem C49_namespace_gets_all_children : ∀ cs h ok, ends_with (instantiate_children cs) h ok →
  (ok = true ↔ ∃ vs, h = zip_with (λ c v, AGet c true (Some v)) cs vs ∧ length vs = length cs) ∧
  (ok = false → ∃ cs1 c cs2 vs, cs = cs1 ++ c :: cs2 ∧ length vs = length cs1 ∧ h = zip_with (λ c v, AGet c true (Some v)) cs1 vs ++ [AGet c true None]).
Proof. exact children_all. Qed.
Print Assumptions C49_namespace_gets_all_children.
Example C49_nonvacuous_children : ends_with (instantiate_children ["a"; "b"; "c"]) [AGet "a" true (Some n_svc); AGet "b" true None] false.
Proof. simpl. constructor. simpl. constructor. constructor. Qed.

(** If the deferred function of a pointer ends well, the interface node was got and, if it is an address, the
    address has a destination, or the server side could not be instantiated. *)
Theorem C49_pointer_instantiates_server : ∀ is_addr iface first h, ends_with (instantiate_dst is_addr iface first) h true →
  ∃ a h', h = AGet iface true (Some a) :: h' ∧ (is_addr a = true → (∃ d, ADest a (Some d) ∈ h') ∨ AGet first false None ∈ h').
Proof. exact instantiate_dst_ok. Qed.
Print Assumptions C49_pointer_instantiates_server.
Example C49_nonvacuous_pointer : ends_with (instantiate_dst (λ v, nd_meta v) "x.addr" "x.server")
  [AGet "x.addr" true (Some n_md); ADest n_md None; AGet "x.server" false (Some n_svc); ADest n_md (Some n_svc)] true.
Proof. unfold instantiate_dst. constructor. simpl. constructor. constructor. constructor. constructor. Qed.

(** It instantiates the server side only for an address that has no destination yet, ... *)
Theorem C49_pointer_instantiates_only_if_needed : ∀ is_addr iface first h ok,
  ends_with (instantiate_dst is_addr iface first) h ok →
  (∃ a h', h = AGet iface true (Some a) :: ADest a None :: h' ∧ is_addr a = true ∧ ∃ r h'', h' = AGet first false r :: h'') ∨
  (∀ x r, AGet x false r ∉ h).
Proof.
  intros is_addr iface first h ok H. unfold instantiate_dst in H. inversion H as [|? ? ? [a|] h1 ? H1|]; subst.
  - destruct (is_addr a) eqn:Ha; [|inversion H1; subst; right; set_solver].
    inversion H1 as [| |? ? [d|] h2 ? H2]; subst; [inversion H2; subst; right; set_solver|].
    inversion H2 as [|? ? ? r h3 ? H3|]; subst. left. eauto 10.
  - inversion H1; subst. right. set_solver.
Qed.
Print Assumptions C49_pointer_instantiates_only_if_needed.
(** ... and fails only if it could not get the interface node, or the server side is there and the address
    still has no destination. *)
Theorem C49_pointer_fails_for_a_reason : ∀ is_addr iface first h,
  ends_with (instantiate_dst is_addr iface first) h false →
  h = [AGet iface true None] ∨
  ∃ a w, is_addr a = true ∧ h = [AGet iface true (Some a); ADest a None; AGet first false (Some w); ADest a None].
Proof.
  intros is_addr iface first h H. unfold instantiate_dst in H. inversion H as [|? ? ? [a|] h1 ? H1|]; subst.
  - destruct (is_addr a) eqn:Ha; [|by inversion H1].
    inversion H1 as [| |? ? [d|] h2 ? H2]; subst; [by inversion H2|].
    inversion H2 as [|? ? ? [w|] h3 ? H3|]; subst; [|by inversion H3].
    inversion H3 as [| |? ? [d|] h4 ? H4]; subst; [by inversion H4|]. inversion H4; subst. right. by exists a, w.
  - inversion H1; subst. by left.
Qed.
Print Assumptions C49_pointer_fails_for_a_reason.

(** Finding: the error of that last case is lost (pointer.go:246 returns a nil error): the build goes on
    without the server. *)
Theorem C49_server_error_lost_refuted :
  ¬ (∀ is_addr iface first h, ends_with (instantiate_dst is_addr iface first) h true → ∀ x e, AGet x e None ∉ h).
Proof.
  intros H. eapply (H (λ v, nd_meta v) "x.addr" "x.server" [AGet "x.addr" true (Some n_md); ADest n_md None; AGet "x.server" false None]).
  - unfold instantiate_dst. constructor. simpl. constructor. constructor. constructor.
  - rewrite !elem_of_cons. right. right. left. reflexivity.
Qed.
Print Assumptions C49_server_error_lost_refuted.
