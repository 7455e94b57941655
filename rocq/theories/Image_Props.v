(** * Properties of container images (C78) *)
From Verif Require Import Image_Model Image_Spec RunSh_Proof RunSh_Props Image_Proof.
From Coq Require Import Lia.
Open Scope string_scope.
Open Scope list_scope.

(** C78. When the image of a container of golang processes works: exactly if the names of the processes give
    usable and, up to case, distinct stages. *)
Theorem C78_image :
  ∀ (E : env) (ps : list process),
    Forall (λ p, pr_go p = true) ps → NoDup (pr_name <$> ps) →
    image_works E ps ↔ NoDup (FuncName ∘ pr_name <$> ps) ∧ Forall (λ p, usable E (pr_name p)) ps.
Proof.
  intros E ps Hgo Hnd. rewrite list_fmap_compose, Forall_forall. split.
  - intros H. by apply image_needs.
  - intros [Hf Hu]. destruct (go_declare ps new_run_script Hgo) as [r0 Hr0]. rewrite Forall_forall in Hgo.
    destruct (image_good E ps r0 Hr0 Hf) as (d&r&H1&_&H2&H3).
    + auto.
    + intros p Hp Hn. apply Hgo in Hp. congruence.
    + exists d, r. split_and!; [done|done|]. intros p Hp. specialize (H3 p Hp). by rewrite (Hgo p Hp) in H3.
Qed.
Print Assumptions C78_image.

(** Containers that also hold other processes: in the image a golang process has its own program, and another
    process its own files, whatever else the container holds. *)
Theorem C78_mixed :
  ∀ (E : env) (ps : list process) (d : image_dir),
    image_of ps = Some d → NoDup (FuncName ∘ pr_name <$> ps) →
    Forall (λ p, pr_go p = true → usable E (pr_name p)) ps →
    Forall (λ p, pr_go p = false → CleanName (pr_name p) ≠ "" ∧ " "%char ∉ list_ascii_of_string (CleanName (pr_name p))) ps →
    ∃ r, docker_build E d = Some r ∧
      ∀ p, p ∈ ps → if pr_go p then started r (pr_name p) = Some (pr_name p)
                    else r !! CleanName (pr_name p) = Some (Sources [pr_name p]).
Proof.
  intros E ps d Hd Hf Hu Hpl. rewrite list_fmap_compose in Hf. rewrite Forall_forall in Hu, Hpl.
  assert (NoDup (names ps)) as Hnd by by eapply NoDup_fmap_1.
  pose proof (image_of_spec ps Hnd) as Him. destruct (declare_all _ _) as [r0|] eqn:Hr0; [|congruence].
  destruct (image_good E ps r0 Hr0 Hf) as (d'&r&H1&_&H2&H3).
  - auto.
  - intros p Hp Hn. destruct (Hpl p Hp Hn). split; [|done]. by apply no_space_iff.
  - exists r. assert (d' = d) as -> by congruence. done.
Qed.
Print Assumptions C78_mixed.

(** Running the container: if the variables the processes need are set, run.sh starts the program of every
    process, each exactly once. *)
Theorem C78_starts :
  ∀ (E : env) (ps : list process) (d : image_dir) (r : root) fuel body vars,
    Forall (λ p, pr_go p = true) ps → NoDup (FuncName ∘ pr_name <$> ps) → Forall (λ p, usable E (pr_name p)) ps →
    image_of ps = Some d → docker_build E d = Some r →
    (∀ p a, p ∈ ps → a ∈ pr_edges p → EnvVar a ∈ vars ∧ a ∉ pr_name <$> ps) →
    keeps_vars body → 0 < fuel →
    ∃ s, run_sh fuel (im_run d) body vars = Some (s, true) ∧
      started r <$> (sh_log s).*1 = Some <$> sort_strings (pr_name <$> ps).
Proof.
  intros E ps d r fuel body vars Hgo Hf Hu Hd Hb He Hk Hfl.
  pose proof Hf as Hf'. rewrite list_fmap_compose in Hf'.
  assert (NoDup (names ps)) as Hnd by by eapply NoDup_fmap_1.
  destruct (go_declare ps new_run_script Hgo) as [r0 Hr0]. rewrite Forall_forall in Hgo. rewrite Forall_forall in Hu.
  destruct (image_good E ps r0 Hr0 Hf') as (d'&r'&H1&H2&H3&H4).
  { auto. }
  { intros p Hp Hn. apply Hgo in Hp. congruence. }
  assert (d' = d) as -> by congruence. assert (r' = r) as -> by congruence.
  assert (rc_name <$> (run_cmd <$> ps) = pr_name <$> ps) as Hnm.
  { rewrite <-list_fmap_compose. by apply list_fmap_ext. }
  assert (∀ n, declared (run_cmd <$> ps) n ↔ n ∈ pr_name <$> ps) as Hdecl.
  { intros n. rewrite <-Hnm, elem_of_list_fmap. unfold declared. naive_solver. }
  assert (∀ m a, depends (run_cmd <$> ps) m a → ∃ p, p ∈ ps ∧ a ∈ pr_edges p) as Hdep.
  { intros m a (c&Hc&_&Ha). apply elem_of_list_fmap in Hc as (p&->&Hp). eauto. }
  destruct (C45_independent_processes_start_once (run_cmd <$> ps) r0 fuel body vars Hr0) as (s&S1&_&S3&_).
  - split; [by rewrite Hnm|]. intros n n'. rewrite !Hdecl. intros (p&->&Hp)%elem_of_list_fmap (q&->&Hq)%elem_of_list_fmap Heq.
    apply elem_of_list_lookup in Hp as [i Hi]. apply elem_of_list_lookup in Hq as [j Hj].
    assert (i = j); [|naive_solver]. eapply NoDup_lookup; [exact Hf| |].
    + rewrite list_lookup_fmap, Hi. done.
    + rewrite list_lookup_fmap, Hj. simpl. by rewrite Heq.
  - intros a m (p&Hp&Ha)%Hdep _. by apply (He p a).
  - done.
  - intros n a (p&Hp&Ha)%Hdep. rewrite Hdecl. by apply (He p a).
  - done.
  - exists s. rewrite H2. split; [done|]. rewrite S3, Hnm. apply list_fmap_ext.
    intros i n Hn%elem_of_list_lookup_2. rewrite Env_Proof.sort_strings_perm in Hn. apply elem_of_list_fmap in Hn as (p&->&Hp).
    specialize (H4 p Hp). by rewrite (Hgo p Hp) in H4.
Qed.
Print Assumptions C78_starts.

(** The deployment: it has one service per container, and each runs the image generated from that container's own
    processes. *)
Theorem C78_deployment :
  ∀ (cs : list container) (d : deployment),
    NoDup (ct_name <$> cs) → deploy cs = Some d →
    (∀ s, is_Some (dp_instances d !! s) ↔ ∃ c, c ∈ cs ∧ s = CleanName (ct_name c)) ∧
    (∀ c c', c ∈ cs → c' ∈ cs → CleanName (ct_name c) = CleanName (ct_name c') → c = c') ∧
    ∀ c, c ∈ cs → ∃ im i, dp_instances d !! CleanName (ct_name c) = Some im ∧ dp_images d !! im = Some i ∧
                          image_of (ct_procs c) = Some i.
Proof.
  intros cs d Hnd Hd. pose proof (deploy_spec cs Hnd) as H. rewrite Hd in H. destruct H as (H1&H2&H3&_). split_and!.
  - intros s. rewrite H2. case_decide as Hs.
    + split; [|eauto]. intros _. apply elem_of_list_fmap in Hs as (c&->&Hc). exists c. done.
    + split; [by intros [? ?]|]. intros (c&Hc&->). exfalso. apply Hs. by apply (elem_of_list_fmap_1 (CleanName ∘ ct_name)).
  - intros c c' Hc Hc' Heq. apply elem_of_list_lookup in Hc as [i Hi]. apply elem_of_list_lookup in Hc' as [j Hj].
    assert (i = j); [|naive_solver]. eapply NoDup_lookup; [exact H1| |].
    + rewrite list_lookup_fmap, Hi. done.
    + rewrite list_lookup_fmap, Hj. simpl. by rewrite Heq.
  - intros c Hc. destruct (H3 c Hc) as [[i Hi] Him]. exists (CleanName (ct_name c)), i. split_and!.
    + rewrite H2, decide_True; [done|]. by apply (elem_of_list_fmap_1 (CleanName ∘ ct_name)).
    + congruence.
    + done.
Qed.
Print Assumptions C78_deployment.
(** Generating it succeeds exactly if the containers have distinct clean names and each image can be generated. *)
Theorem C78_deployment_iff :
  ∀ (cs : list container),
    NoDup (ct_name <$> cs) →
    is_Some (deploy cs) ↔ NoDup (CleanName ∘ ct_name <$> cs) ∧ ∀ c, c ∈ cs → is_Some (image_of (ct_procs c)).
Proof.
  intros cs Hnd. pose proof (deploy_spec cs Hnd) as H. destruct (deploy cs) as [d|].
  - destruct H as (H1&_&H3&_). split; [|eauto]. intros _. split; [done|]. intros c Hc. by apply H3.
  - split; [by intros [? ?]|]. intros ?. done.
Qed.
Print Assumptions C78_deployment_iff.

(** A container of golang processes with distinct names can always be generated ... *)
Theorem C78_generated :
  ∀ (ps : list process), Forall (λ p, pr_go p = true) ps → NoDup (pr_name <$> ps) → is_Some (image_of ps).
Proof.
  intros ps Hgo Hnd. destruct (go_declare ps new_run_script Hgo) as [r Hr]. pose proof (image_of_spec ps Hnd) as H.
  rewrite Hr in H. eauto.
Qed.
Print Assumptions C78_generated.

(** ... but the image need not build: names of root directories of the golang image, "src", names beginning with an
    underscore, two names that differ in case only. *)
Definition gop (n : string) : process := Process n [n +:+ ".bind_addr"] true [].
Definition debian : env := Env {["bin"; "etc"; "go"; "home"; "root"; "tmp"; "usr"; "var"]} {["etc"; "home"; "usr"]} (λ _, None).
Theorem C78_names_refuted :
  ∀ ns, ns ∈ [["home"]; ["src"]; ["_cart"]; ["cart proc"]; ["Cart"; "cart"]; ["a.b"; "a_b"]] →
    is_Some (image_of (gop <$> ns)) ∧ ¬ image_works debian (gop <$> ns).
Proof.
  set (fails ns := match image_of (gop <$> ns) with
    | None => false
    | Some d => match docker_build debian d with
                | Some r => existsb (λ n, negb (bool_decide (started r n = Some n))) ns
                | None => true end end).
  assert (∀ ns, fails ns = true → is_Some (image_of (gop <$> ns)) ∧ ¬ image_works debian (gop <$> ns)) as Hgen.
  { intros ns. unfold fails. destruct (image_of (gop <$> ns)) as [d|] eqn:Ed; [|done]. intros H. split; [eauto|].
    intros (d'&r&H1&H2&H3). assert (d' = d) as -> by congruence. rewrite H2 in H.
    apply existsb_exists in H as (n&Hn&Hs). apply elem_of_list_In in Hn. apply negb_true_iff, bool_decide_eq_false in Hs.
    apply Hs. apply (H3 (gop n)). by apply elem_of_list_fmap_1. }
  assert (forallb fails [["home"]; ["src"]; ["_cart"]; ["cart proc"]; ["Cart"; "cart"]; ["a.b"; "a_b"]] = true) as Hall.
  { by vm_compute. }
  intros ns Hns. apply Hgen. rewrite forallb_forall in Hall. apply Hall. by apply elem_of_list_In.
Qed.
Print Assumptions C78_names_refuted.
(** Containers with equal clean names are not deployed. *)
Theorem C78_containers_refuted :
  deploy [Container "shop.ctr" [gop "cart"]; Container "shop_ctr" [gop "user"]] = None.
Proof. by vm_compute. Qed.
Print Assumptions C78_containers_refuted.

(** A container with two golang processes and one that is not, and a deployment of two containers. *)
Definition two : list process :=
  [gop "user_proc"; gop "cart_proc"; Process "seed" [] false (list_ascii_of_string "f() { ./seed }")].
Example C78_ex :
  match image_of two with
  | Some d => match docker_build debian d with
              | Some r => (started r <$> ["user_proc"; "cart_proc"], r !! "seed", r !! "home") =
                          ([Some "user_proc"; Some "cart_proc"], Some (Sources ["seed"]), Some Existing)
              | None => False end
  | None => False end.
Proof. by vm_compute. Qed.
Example C78_ex_deploy :
  is_Some (deploy [Container "shop_ctr" [gop "cart_proc"; gop "user_proc"]; Container "db_ctr" [gop "db_proc"]]).
Proof. apply (bool_decide_unpack _). by vm_compute. Qed.
Example C78_ex_usable : Forall (λ n, usable debian n) ["user_proc"; "cart_proc"; "Proc.7"].
Proof.
  repeat constructor; try by vm_compute.
  all: try (eexists _, _; split_and!; [by vm_compute|by left|]; by apply (bool_decide_unpack _); vm_compute).
  all: try (eexists _, _; split_and!; [by vm_compute|by right|]; by apply (bool_decide_unpack _); vm_compute).
  all: apply (bool_decide_unpack _); by vm_compute.
Qed.
