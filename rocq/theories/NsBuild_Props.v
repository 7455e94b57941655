(** * Properties of generated namespaces (C40) *)
From Verif Require Import NsBuild_Proof.
From Coq Require Import Lia.

(** C40. Running the file generated from any sequence of calls gives a run-time builder that has, for each name, the first
    declaration that was accepted, the last description of each required and optional argument, and the requested
    instantiations, each once and in the order of the first requests; nothing else. *)
Theorem C40_generated_file : ∀ os b xs rs ops ds,
  brun new_nsb os = (b, xs) → (∀ o, o ∈ os → plain_op o) →
  (∀ n d d', ORequired n d ∈ os → OOptional n d' ∉ os) →
  rs ≡ₚ map_to_list (required b) → ops ≡ₚ map_to_list (optional b) → ds ≡ₚ map_to_list (declarations b) →
  ∃ rb, execs new_rb (render rs ops (instantiations b) ds) = Some rb ∧
    (∀ n, rb_defs rb !! n = first_decl n os) ∧
    (∀ n, rb_required rb !! n = last_desc req_of n os) ∧
    (∀ n, rb_optional rb !! n = last_desc opt_of n os) ∧
    rb_inst rb = firsts (omap inst_of os).
Proof.
  intros os b xs rs ops ds E P X Hr Ho Hd. pose proof (brun_inv os) as [D R O I]. rewrite E in D, R, O, I. cbn [fst] in D, R, O, I.
  assert (∀ f n d, last_desc f n os = Some d → ∃ o, o ∈ os ∧ f o = Some (n, d)) as LD.
  { intros f n d H. unfold last_desc in H. apply fmap_Some in H as ([n' d'] & H & ->).
    rewrite last_lookup in H. apply elem_of_list_lookup_2 in H. apply elem_of_list_filter in H as [H1 H2]. cbn in H1. subst n'.
    apply elem_of_list_omap in H2 as (o & Ho' & Ef). by exists o. }
  assert (∀ n d, (n, d) ∈ rs → ORequired n d ∈ os) as KR.
  { intros n d H. rewrite Hr in H. apply elem_of_map_to_list in H. rewrite R in H. apply LD in H as (o & H1 & H2). destruct o; try done. by injection H2 as -> ->. }
  assert (∀ n d, (n, d) ∈ ops → OOptional n d ∈ os) as KO.
  { intros n d H. rewrite Ho in H. apply elem_of_map_to_list in H. rewrite O in H. apply LD in H as (o & H1 & H2). destruct o; try done. by injection H2 as -> ->. }
  assert (NoDup rs.*1) as NR by (rewrite Hr; apply NoDup_fst_map_to_list).
  assert (NoDup ops.*1) as NO by (rewrite Ho; apply NoDup_fst_map_to_list).
  assert (NoDup ds.*1) as NDs by (rewrite Hd; apply NoDup_fst_map_to_list).
  unfold render. rewrite execs_app, exec_reqs; [|done|].
  2: { intros n d H. apply KR in H. destruct (P _ H). split_and!; [done|done|]. cbn. apply not_elem_of_empty. }
  rewrite execs_app, exec_opts; [|done|].
  2: { intros n d H. apply KO in H as H'. destruct (P _ H'). split_and!; [done|done|]. cbn. rewrite (right_id_L ∅ (∪)), elem_of_list_to_set.
       intros Hx. apply elem_of_list_fmap in Hx as ([n' d'] & -> & Hx). cbn in *. by apply KR, (X n' d' d) in Hx. }
  rewrite execs_app, exec_insts.
  2: { intros n H. rewrite I in H. rewrite firsts_elem in H. apply elem_of_list_omap in H as (o & H1 & H2). destruct o; try done. injection H2 as ->. apply (P _ H1). }
  rewrite exec_defs; [|done|].
  2: { intros n s H. rewrite Hd in H. apply elem_of_map_to_list in H. rewrite D in H. unfold first_decl in H. apply fmap_Some in H as ([n' s'] & H & ->).
       apply head_Some_elem_of in H. apply elem_of_list_filter in H as [H1 H2]. cbn in H1. subst n'. apply elem_of_list_omap in H2 as (o & H1 & H2).
       destruct o as [| | |m code|m c args]; try done; cbn in H2; [injection H2 as -> <-; apply (P _ H1)|].
       destruct (ctor_body c args); [|done]. injection H2 as -> <-. apply (P _ H1). }
  eexists. split; [done|]. cbn [rb_defs rb_required rb_optional rb_inst new_rb].
  assert (∀ {A} (l : list (string * A)) (m : gmap string A), NoDup l.*1 → l ≡ₚ map_to_list m → list_to_map (reverse l) = m) as LM.
  { intros A l m N EQ. rewrite (list_to_map_proper (M := gmap string) (reverse l) (map_to_list m)).
    - by rewrite list_to_map_to_list.
    - by rewrite (reverse_Permutation l).
    - by rewrite (reverse_Permutation l), EQ. }
  rewrite !(right_id_L ∅ (∪)), (LM _ rs _ NR Hr), (LM _ ops _ NO Ho), (LM _ ds _ NDs Hd). split_and!; try done.
Qed.
Print Assumptions C40_generated_file.

(** A declaration is rejected exactly if it is invalid or its name was declared before. *)
Theorem C40_redeclaration : ∀ os1 o os2 n, (∃ code, o = ODecl n code) ∨ (∃ c args, o = OCtor n c args) →
  (brun new_nsb (os1 ++ o :: os2)).2 !! length os1 = Some true ↔ is_Some (decl_of o) ∧ first_decl n os1 = None.
Proof.
  intros os1 o os2 n H. rewrite brun_result. destruct (bstep_inv os1 _ o (brun_inv os1)) as [_ K]. rewrite K.
  assert (∀ P Q : Prop, ∀ `{Decision P} `{Decision Q}, Some (bool_decide P && bool_decide Q) = Some true ↔ P ∧ Q) as T.
  { intros P Q HP HQ. destruct (decide P), (decide Q); rewrite ?bool_decide_eq_true_2, ?bool_decide_eq_false_2 by done; naive_solver. }
  destruct H as [[code ->]|(c & args & ->)]; apply T.
Qed.
Print Assumptions C40_redeclaration.

(** A constructor declared with as many arguments as it takes, none of them metadata, is called with exactly these
    arguments in their order: literal values, and what Get returns for the nodes; if one of them is not available the build
    fails and the constructor is not called. *)
Theorem C40_constructor_arguments : ∀ c args, length (c_args c) = S (length args) → (∀ a, a ∈ args → ¬ is_meta a ∧ plain_arg a) → names_ok c args →
  ∃ b, (∀ n, decl_of (OCtor n c args) = Some (n, Gen b)) ∧
    ∀ get, run_body get b = match mapM (arg_value get) args with Some vs => Called (c_name c) vs | None => Failed end.
Proof.
  intros c args L P N. destruct (ctor_args_some (tail (c_args c)) args) as [[g e] E].
  - destruct (c_args c); [done|]. cbn in *. lia.
  - intros a Ha. by apply P.
  - assert (ctor_body c args = Some (Body g (c_pkg c) (c_name c) e)) as EB.
    { unfold ctor_body. rewrite bool_decide_eq_true_2 by done. by rewrite E. }
    exists (Body g (c_pkg c) (c_name c) e). split; [intros n; cbn; by rewrite EB|]. intros get. apply body_runs; [done|done|]. intros a Ha. by apply P.
Qed.
Print Assumptions C40_constructor_arguments.

(** Any other number of arguments, or a metadata argument, is rejected. *)
Theorem C40_bad_arguments : ∀ n c args, length (c_args c) ≠ S (length args) ∨ (∃ a, a ∈ args ∧ is_meta a) → decl_of (OCtor n c args) = None.
Proof.
  intros n c args H. cbn. unfold ctor_body. case_bool_decide as L; [|done]. destruct H as [?|(a & Ha & M)]; [done|].
  assert (∀ vars args, length vars = length args → a ∈ args → ctor_args vars args = None) as K.
  { clear -M. induction vars as [|x vars IH]; intros [|a' args] HL Ha; try done; [by apply elem_of_nil in Ha|].
    cbn. apply elem_of_cons in Ha as [<-|Ha]; [by destruct a|]. rewrite (IH args) by (done || by injection HL). by destruct a'. }
  rewrite (K (tail (c_args c)) args); [done| |done]. destruct (c_args c); [done|]. cbn in *. lia.
Qed.
Print Assumptions C40_bad_arguments.

Definition ex_ctor : ctor := Ctor "workflow" "NewFrontend" ["ctx"; "users"; "limit"; "cart"].
Definition ex_args : list garg := [GNode "user.client" "user"; GValue "10"; GNode "cart.client" "cart"].
Example C40_nonvacuous :
  length (c_args ex_ctor) = S (length ex_args) ∧ (∀ a, a ∈ ex_args → ¬ is_meta a ∧ plain_arg a) ∧ names_ok ex_ctor ex_args ∧
  (∃ b, ctor_body ex_ctor ex_args = Some b ∧
     run_body (λ n, if bool_decide (n = "user.client") then Some (VInst 1) else if bool_decide (n = "cart.client") then Some (VInst 2) else None) b
     = Called "NewFrontend" [VInst 1; VStr "10"; VInst 2]) ∧
  let os := [ORequired "a" "x"; OCtor "f" ex_ctor ex_args; OInst "f"; OInst "g"; ODecl "f" "again"; OInst "f"; ORequired "a" "y"] in
  (∀ o, o ∈ os → plain_op o) ∧ (brun new_nsb os).2 = [true; true; true; true; false; true; true].
Proof.
  split_and!; [done| | | |cbn zeta; split].
  - intros a Ha. set_unfold in Ha. destruct Ha as [->|[->|[->|[]]]]; (split; [by intros []|]); cbn; repeat split; done.
  - intros i x n t H1 H2. destruct i as [|[|[|]]]; try done; injection H1 as <-; injection H2 as <- <-; (split_and!; try done);
      intros [|[|[|]]] y m u L H3 H4; try lia; try done; injection H3 as <-; injection H4 as <- <-; done.
  - eexists. split; vm_compute; reflexivity.
  - intros o Ho. set_unfold in Ho. destruct Ho as [->|[->|[->|[->|[->|[->|[->|[]]]]]]]]; cbn; repeat split; done.
  - vm_compute. reflexivity.
Qed.

(** A constructor that has an argument named like its own package is valid Go, but the generated call to it does not compile. *)
Theorem C40_argument_names_refuted : ∃ c args, length (c_args c) = S (length args) ∧ NoDup (c_args c) ∧ (∀ a, a ∈ args → ¬ is_meta a ∧ plain_arg a) ∧
  ∃ b, ctor_body c args = Some b ∧ ∀ get, run_body get b = Rejected.
Proof.
  exists (Ctor "user" "NewUserServiceImpl" ["ctx"; "user"]), [GNode "user_db" "backend"].
  split_and!; [done|apply (bool_decide_unpack _); vm_compute; exact I| |eexists; split; [vm_compute; reflexivity|intros get; vm_compute; reflexivity]].
  intros a Ha. set_unfold in Ha. destruct Ha as [->|[]]. split; [by intros []|]. cbn. repeat split; done.
Qed.
Print Assumptions C40_argument_names_refuted.

(** A literal argument with a quote, backslash or newline in it does not reach the constructor as it is. *)
Theorem C40_literals_are_not_escaped_refuted : ∃ c v b, ctor_body c [GValue v] = Some b ∧ names_ok c [GValue v] ∧ ∀ get, run_body get b ≠ Called (c_name c) [VStr v].
Proof.
  exists (Ctor "p" "New" ["ctx"; "x"]), (String backslash "n"). eexists. split_and!; [vm_compute; reflexivity| |].
  - intros [|i] x n t H1 H2; [done|]. by destruct i.
  - intros get. vm_compute. congruence.
Qed.
Print Assumptions C40_literals_are_not_escaped_refuted.
