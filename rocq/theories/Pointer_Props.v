(** * Properties of pointers (C10) *)
From Verif Require Import Pointer_Model Pointer_Spec Pointer_Proof.

(** C10. Whatever calls are made on a pointer and the wiring spec it is in, as long as no client-side modifier
    is added twice and nobody redefines the pointer's own names: the client side goes through exactly the
    modifiers of the AddSrcModifier calls, in the order of the calls, each followed by what its call
    returned, and then meets the server side at the last interface node (an address, or a server-side
    modifier, or the destination). *)
Theorem C10_client_side : ∀ fuel s name dst ty uniq os,
  let st := create_pointer fuel s name dst ty uniq in
  let st' := prun name st os in
  NoDup (src_added os) → undisturbed name os →
  client_path (ws st') (sret st') (name +:+ ".src")%string (src_added os) (List.last (ifaces name st os) (original_dst name dst uniq)) ∧
  p_iface (pt st') = List.last (ifaces name st os) (original_dst name dst uniq) ∧
  (sret st').*1 = src_added os.
Proof. intros fuel s name dst ty uniq os st st' H1 H2. destruct (pointer_paths fuel s name dst ty uniq os H1 H2) as (? & ? & _ & _ & ? & _). done. Qed.
Print Assumptions C10_client_side.

(** The server side starts at the modifier added last, goes through what each call returned, that is all the
    modifiers latest first, and ends at the original destination. *)
Theorem C10_server_side : ∀ fuel s name dst ty uniq os,
  let st := create_pointer fuel s name dst ty uniq in
  let st' := prun name st os in
  NoDup (src_added os) → undisturbed name os →
  let ds := dst_added name st os in
  hd_error (p_dmods (pt st')) = Some (List.last ds (original_dst name dst uniq)) ∧
  server_path (dret st') (List.last ds (original_dst name dst uniq)) (rev ds) (original_dst name dst uniq) ∧
  (dret st').*1 = ds.
Proof. intros fuel s name dst ty uniq os st st' H1 H2. destruct (pointer_paths fuel s name dst ty uniq os H1 H2) as (_ & _ & ? & ? & _ & ?). done. Qed.
Print Assumptions C10_server_side.

(** Getting the pointer starts at the client side. *)
Theorem C10_pointer_starts_at_client_side : ∀ fuel s name dst ty uniq os,
  let st' := prun name (create_pointer fuel s name dst ty uniq) os in
  name ∉ own_names name (src_added os) → (∀ o, o ∈ os → name ∉ touches name o) →
  ∃ d, sp_defs (ws st') !! name = Some d ∧ wd_build d = Some (BPointer (name +:+ ".src")) ∧ wd_type d = ty.
Proof. exact pointer_start. Qed.
Print Assumptions C10_pointer_starts_at_client_side.

(** With uniqueness (the default) the end of the server side is an alias of the check, which gets the
    destination itself; if the destination is not defined yet when the pointer is made there is no check, and
    an error is recorded. *)
Theorem C10_destination_is_checked : ∀ fuel s name dst ty vis os,
  let st' := prun name (create_pointer fuel s name dst ty (Some vis)) os in
  let check := (dst +:+ ".uniqueness_check")%string in
  name ≠ check → (∀ o, o ∈ os → (name +:+ ".dst")%string ∉ touches name o ∧ check ∉ touches name o) →
  match get_def fuel (step s (OAlias (name +:+ ".dst") dst)) dst with
  | Some (Some d) =>
      get_alias (ws st') (name +:+ ".dst") = Some check ∧
      (∃ d', sp_defs (ws st') !! check = Some d' ∧ wd_build d' = Some (BCheck (dst +:+ ".visibility") dst) ∧ wd_type d' = wd_type d) ∧
      errs st' = []
  | _ => get_alias (ws st') (name +:+ ".dst") = Some dst ∧ errs st' = [dst]
  end.
Proof. exact pointer_destination. Qed.
Print Assumptions C10_destination_is_checked.

(** A service with retries and tracing on the client side, tracing on the server side, exposed by RPC at an
    address, in a process. *)
Definition ex_spec : wspec := run [ODefine "leaf.impl" (Some 1) (Some (BUser 7)) None VOther].
Definition ex_ops : list pop :=
  PSrc "leaf.retry" :: PWiring (ODefine "leaf.retry" (Some 1) (Some (BUser 8)) None VOther) ::
  PDst "leaf.trace" true :: PSrc "leaf.tracecli" ::
  (PWiring <$> address_define "leaf.addr" "leaf.server" "leaf.bind_addr" "leaf.dial_addr" (Some 0)) ++
  [PAddr "leaf.addr"; PSrc "leaf.rpccli"; PAddTo "proc" 3].
Definition ex_st : state := prun "leaf" (create_pointer 5 ex_spec "leaf" "leaf.impl" (Some 1) (Some 0)) ex_ops.
Example C10_nonvacuous :
  NoDup (src_added ex_ops) ∧ undisturbed "leaf" ex_ops ∧
  src_added ex_ops = ["leaf.retry"; "leaf.tracecli"; "leaf.rpccli"] ∧
  dst_added "leaf" (create_pointer 5 ex_spec "leaf" "leaf.impl" (Some 1) (Some 0)) ex_ops = ["leaf.trace"; "leaf.server"; "leaf.proc"] ∧
  p_iface (pt ex_st) = "leaf.addr" ∧ hd_error (p_dmods (pt ex_st)) = Some "leaf.proc" ∧
  sret ex_st = [("leaf.retry", "leaf.retry.ptr.src.next"); ("leaf.tracecli", "leaf.tracecli.ptr.src.next"); ("leaf.rpccli", "leaf.rpccli.ptr.src.next")] ∧
  dret ex_st = [("leaf.trace", "leaf.dst"); ("leaf.server", "leaf.trace"); ("leaf.proc", "leaf.server")] ∧
  get_alias (ws ex_st) "leaf.dst" = Some "leaf.impl.uniqueness_check" ∧ errs ex_st = [].
Proof.
  split_and!; try (vm_compute; reflexivity).
  - change (NoDup ["leaf.retry"; "leaf.tracecli"; "leaf.rpccli"]). repeat (constructor; [set_solver|]). constructor.
  - intros o n Ho. change (own_names "leaf" (src_added ex_ops)) with ["leaf.src"; "leaf.retry.ptr.src.next"; "leaf.tracecli.ptr.src.next"; "leaf.rpccli.ptr.src.next"].
    assert (Forall (λ o, Forall (λ n, n ∉ ["leaf.src"; "leaf.retry.ptr.src.next"; "leaf.tracecli.ptr.src.next"; "leaf.rpccli.ptr.src.next"]) (touches "leaf" o)) ex_ops) as H.
    { unfold ex_ops. simpl. repeat (apply Forall_cons; split; [simpl; repeat (apply Forall_cons; split; [rewrite !elem_of_cons, elem_of_nil; naive_solver|]); constructor|]). constructor. }
    intros Hn. eapply Forall_forall in H; [|exact Ho]. eapply Forall_forall in H; [|exact Hn]. exact H.
Qed.

(** Finding: adding a client-side modifier a second time drops the modifiers added in between. *)
Theorem C10_modifier_added_twice_refuted :
  ¬ (∀ s name dst ty os, undisturbed name os →
       ∃ ms, client_path (ws (prun name (create_pointer 5 s name dst ty None) os)) (sret (prun name (create_pointer 5 s name dst ty None) os)) (name +:+ ".src")%string ms dst ∧
             ∀ m, PSrc m ∈ os → m ∈ ms).
Proof.
  intros H. destruct (H new_spec "x" "d" None [PSrc "a"; PSrc "b"; PSrc "a"]) as (ms & Hp & Hm).
  { intros o n Ho Hn. rewrite !elem_of_cons, elem_of_nil in Ho. destruct Ho as [->|[->|[->|[]]]]; simpl in Hn; by apply elem_of_nil in Hn. }
  assert ("b" ∈ ms) as Hb by (apply Hm; set_solver).
  set (st := prun "x" _ _) in Hp.
  assert (sret st = [("a", "a.ptr.src.next"); ("b", "b.ptr.src.next"); ("a", "a.ptr.src.next")]) as Er by (vm_compute; reflexivity).
  assert (get_alias (ws st) "x.src" = Some "a") as E1 by (vm_compute; reflexivity).
  assert (get_alias (ws st) "a.ptr.src.next" = Some "d") as E2 by (vm_compute; reflexivity).
  rewrite Er in Hp. revert Hp. generalize (ws st) E1 E2. clear -Hb. intros w E1 E2 Hp.
  inversion Hp as [n e H1|n m r l e H1 H2 H3]; subst; [by apply elem_of_nil in Hb|].
  change ("x" +:+ ".src")%string with "x.src" in H1. rewrite E1 in H1. injection H1 as <-.
  assert (r = "a.ptr.src.next") as -> by (rewrite !elem_of_cons, elem_of_nil in H2; naive_solver).
  rewrite elem_of_cons in Hb. destruct Hb as [?|Hb]; [done|].
  inversion H3 as [n e H1|n m r l2 e H1 H4 H5]; subst; [by apply elem_of_nil in Hb|].
  rewrite E2 in H1. injection H1 as <-. rewrite !elem_of_cons, elem_of_nil in H4. naive_solver.
Qed.
Print Assumptions C10_modifier_added_twice_refuted.

(** Finding: a process (or any namespace) called "src" or "dst" takes over names of the pointers put into it.
    With "dst" the node that enters the namespace then waits for itself. *)
Theorem C10_namespace_called_dst_refuted :
  ¬ (∀ fuel s name dst ty vis ns nty d,
       get_def fuel (step s (OAlias (name +:+ ".dst") dst)) dst = Some (Some d) →
       let st' := prun name (create_pointer fuel s name dst ty (Some vis)) [PAddTo ns nty] in
       ∃ m r, dret st' = [(m, r)] ∧ m ≠ r).
Proof.
  intros H. destruct (H 5 ex_spec "leaf" "leaf.impl" (Some 1) 0 "dst" 3 (WDef "leaf.impl" (Some 1) (Some (BUser 7)) {["callsite" := [VOther]]} (WOpts (Some 1) false))) as (m & r & E & Hne).
  - vm_compute. reflexivity.
  - vm_compute in E. injection E as <- <-. done.
Qed.
Print Assumptions C10_namespace_called_dst_refuted.

(** Finding: a pointer made before its destination is defined is not checked for uniqueness; the error is
    recorded, but building does not look at it (wiring.go:290-292). *)
Theorem C10_early_pointer_unchecked_refuted :
  ∃ s name dst, let st' := prun name (create_pointer 5 s name dst (Some 1) (Some 0)) [PWiring (ODefine dst (Some 1) (Some (BUser 7)) None VOther)] in
    get_alias (ws st') (name +:+ ".dst") = Some dst ∧ errs st' = [dst] ∧ (dst +:+ ".uniqueness_check")%string ∉ defs (ws st').
Proof.
  exists new_spec, "leaf", "leaf.impl". split; [vm_compute; reflexivity|]. split; [vm_compute; reflexivity|]. vm_compute. set_solver.
Qed.
Print Assumptions C10_early_pointer_unchecked_refuted.
