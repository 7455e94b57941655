(** * Properties of generated workspaces: directories (C39), Finish (C51), adding modules (C52) *)
From Verif Require Import Workspace_Model Workspace_Spec Workspace_Proof.
Open Scope list_scope.
From Coq Require Import Lia.

(** C39. As long as no call failed and no generated module's last path component was in use as a directory, different
    modules are in different directories, each of which has the go.mod of its module. *)
Theorem C39_modules_have_their_own_directories : ∀ os w xs,
  wrun empty_workspace os = (w, xs) → all_succeeded xs → no_clash os →
  (∀ o1 o2, o1 ∈ os → o2 ∈ os → op_module o1 = op_module o2 ↔ op_dir o1 = op_dir o2) ∧
  (∀ o, o ∈ os → ∃ m mf, op_module o = Some m ∧ get_local_module w m = Some (op_dir o) ∧
                          disk w !! op_dir o = Some mf ∧ mf_path mf = m).
Proof.
  intros os w xs E A C. assert (w = (wrun empty_workspace os).1) as -> by (by rewrite E).
  assert (all_succeeded (wrun empty_workspace os).2) as A' by (by rewrite E).
  pose proof (wrun_good os A' C) as G. split.
  - intros o1 o2 H1 H2. destruct (wrun_op os o1 A' C H1) as (m1 & -> & D1). destruct (wrun_op os o2 A' C H2) as (m2 & -> & D2). split.
    + intros [= ->]. congruence.
    + intros ED. f_equal. apply (g_both _ _ G) in D1, D2. rewrite ED in D1. congruence.
  - intros o Ho. destruct (wrun_op os o A' C Ho) as (m & Em & D). pose proof (proj2 (g_both _ _ G _ _) D) as D'.
    destruct (g_disk _ _ G _ _ D') as (mf & ? & ?). exists m, mf. done.
Qed.
Print Assumptions C39_modules_have_their_own_directories.

(** Whatever happened, go.work lists a module at most once. *)
Theorem C39_listed_once : ∀ os d1 d2 m,
  let w := (wrun empty_workspace os).1 in
  modules w !! d1 = Some m → modules w !! d2 = Some m → d1 = d2.
Proof. intros os d1 d2 m w H1 H2. pose proof (wrun_wwf os _ wwf_empty) as [W]. apply W in H1, H2. congruence. Qed.
Print Assumptions C39_listed_once.

(** A module that the workspace knows cannot be created again; trying changes nothing. *)
Theorem C39_no_redeclaration : ∀ w m mk wr, is_Some (get_local_module w m) → create_module w m mk wr = (w, None).
Proof. intros w m mk wr [d H]. unfold create_module. unfold get_local_module in H. by rewrite H. Qed.
Print Assumptions C39_no_redeclaration.

Example C39_nonvacuous :
  let os := [WLocal "runtime" (Some (Modfile "bp/runtime" ∅ ∅)) true true; WCreate "blueprint/goproc/user_proc" true true;
             WLocal "runtime" (Some (Modfile "bp/runtime" ∅ ∅)) true true; WCreate "blueprint/goproc/cart_proc" true true] in
  (wrun empty_workspace os).2 = [Some "runtime"; Some "user_proc"; Some "runtime"; Some "cart_proc"] ∧ no_clash os.
Proof.
  split; [vm_compute; reflexivity|].
  intros i j o n a b L H1 H2. destruct j as [|[|[|[|[]]]]]; try done; injection H2 as <- <- <-;
    destruct i as [|[|[|[|]]]]; try lia; injection H1 as <-; vm_compute; done.
Qed.

(** Two generated modules with the same last path component end up in one directory, and the go.mod of the first one is
    overwritten, without an error. *)
Theorem C39_generated_modules_can_clash_refuted : ∃ m1 m2 w d,
  m1 ≠ m2 ∧ wrun empty_workspace [WCreate m1 true true; WCreate m2 true true] = (w, [Some d; Some d]) ∧
  get_local_module w m1 = Some d ∧ get_local_module w m2 = Some d ∧ disk w !! d = Some (Modfile m2 ∅ ∅).
Proof. exists "a/tests", "b/tests". eexists _, "tests". split_and!; [done|vm_compute; reflexivity|vm_compute; reflexivity..]. Qed.
Print Assumptions C39_generated_modules_can_clash_refuted.

(** Adding a local module into a directory that is in use fails, but the next try succeeds, without the module being there. *)
Theorem C39_a_failed_module_is_remembered_refuted : ∃ w mf d,
  wrun empty_workspace [WLocal d (Some (Modfile "a/x" ∅ ∅)) true true; WLocal d (Some mf) true true; WLocal d (Some mf) true true] =
    (w, [Some d; None; Some d]) ∧
  mf_path mf = "b/x" ∧ disk w !! d = Some (Modfile "a/x" ∅ ∅).
Proof. eexists _, (Modfile "b/x" ∅ ∅), "x". split_and!; vm_compute; reflexivity. Qed.
Print Assumptions C39_a_failed_module_is_remembered_refuted.

(** C51. After Finish, if the go.mod files could be read and written, go.work lists exactly the directories of the modules,
    each once, and every module's go.mod redirects every other module of the workspace to its directory; other
    replace directives and the requires stay as they were. *)
Theorem C51_modules_find_each_other : ∀ os w xs order readable ok dirs dk,
  wrun empty_workspace os = (w, xs) → all_succeeded xs → no_clash os →
  order ≡ₚ map_to_list (modules w) → (∀ d, readable d = true) → (∀ d, ok d = true) →
  finish readable ok true order w = Some (dirs, dk) →
  NoDup dirs ∧ (∀ d, d ∈ dirs ↔ ∃ o, o ∈ os ∧ op_dir o = d) ∧
  ∀ o m mf, o ∈ os → op_module o = Some m → disk w !! op_dir o = Some mf → ∃ mf',
    dk !! op_dir o = Some mf' ∧ mf_path mf' = m ∧ mf_require mf' = mf_require mf ∧
    (∀ o' m', o' ∈ os → op_module o' = Some m' → m' ≠ m → mf_replace mf' !! m' = Some ("../" +:+ op_dir o')) ∧
    (∀ m', (m' = m ∨ ∀ o', o' ∈ os → op_module o' ≠ Some m') → mf_replace mf' !! m' = mf_replace mf !! m').
Proof.
  intros os w xs order readable ok dirs dk E A C O R OKd F.
  assert (w = (wrun empty_workspace os).1) as EW by (by rewrite E).
  assert (all_succeeded (wrun empty_workspace os).2) as A' by (by rewrite E).
  pose proof (wrun_good os A' C) as G. rewrite <-EW in G. injection F as <- <-.
  assert (∀ d m, (d, m) ∈ order ↔ modules w !! d = Some m) as HO.
  { intros d m. rewrite O. by rewrite elem_of_map_to_list. }
  assert (NoDup order.*1) as N1 by (rewrite O; apply NoDup_fst_map_to_list).
  assert (NoDup order.*2) as N2.
  { apply NoDup_fmap_2_strong; [|by eapply NoDup_fmap_1]. intros [d1 m1] [d2 m2] H1 H2 E12. cbn in E12. subst m2.
    apply HO, (g_both _ _ G) in H1, H2. congruence. }
  assert (∀ o, o ∈ os → ∃ m, op_module o = Some m ∧ (op_dir o, m) ∈ order) as OP.
  { intros o Ho. destruct (wrun_op os o A' C Ho) as (m & Em & D). exists m. split; [done|]. apply HO, (g_both _ _ G). by rewrite EW. }
  assert (∀ m, m ∉ order.*2 → ∀ o, o ∈ os → op_module o ≠ Some m) as NOP.
  { intros m Hm o Ho Em. destruct (OP o Ho) as (m' & Em' & Hin). apply Hm. assert (m = m') as -> by congruence.
    by apply (elem_of_list_fmap_1 snd) in Hin. }
  split_and!; [done| |].
  - intros d. rewrite elem_of_list_fmap. split.
    + intros ([d' m] & -> & H). apply HO in H. cbn. apply (g_only _ _ G). eauto.
    + intros (o & Ho & <-). destruct (OP o Ho) as (m & _ & H). by exists (op_dir o, m).
  - intros o m mf Ho Em D. destruct (OP o Ho) as (m' & Em' & Hin). assert (m' = m) as -> by congruence.
    assert (∀ d m, (d, m) ∈ order → readable d = true ∧ ∃ mf, disk w !! d = Some mf ∧ mf_path mf = m) as HH.
    { intros d' m' H'. split; [done|]. by apply (g_disk _ _ G), HO. }
    destruct (finish_loop readable ok order order N1 N2 OKd (reflexivity order) (disk w) HH (op_dir o) m mf Hin D)
      as (mf' & L1 & L2 & L3 & _ & L5). specialize (L5 Hin).
    exists mf'. split_and!; [done|done|done| |].
    + intros o' m' Ho' Em'2 N. destruct (OP o' Ho') as (m2 & E2 & Hin2). assert (m2 = m') as -> by congruence. by apply L5.
    + intros m' Hm. apply L5. destruct Hm as [Hm|Hm]; [by left|right]. intros Hx.
      apply elem_of_list_fmap in Hx as ([d' m2] & -> & Hx). cbn in Hm. apply HO in Hx.
      destruct (g_only _ _ G d') as (o' & Ho' & Ed); [eauto|]. destruct (OP o' Ho') as (m3 & E3 & Hin3).
      rewrite Ed in Hin3. apply HO in Hin3. apply (Hm o' Ho'). congruence.
Qed.
Print Assumptions C51_modules_find_each_other.

Example C51_nonvacuous :
  let w := (wrun empty_workspace [WLocal "runtime" (Some (Modfile "bp/runtime" {["x" := "../../x"]} ∅)) true true; WCreate "gen/user_proc" true true]).1 in
  ∃ dk, finish (λ _, true) (λ _, true) true (map_to_list (modules w)) w = Some (["runtime"; "user_proc"], dk) ∧
    (mf_replace <$> dk !! "user_proc") = Some {["bp/runtime" := "../runtime"]} ∧
    (mf_replace <$> dk !! "runtime") = Some {["gen/user_proc" := "../user_proc"; "x" := "../../x"]}.
Proof. eexists. split; [vm_compute; reflexivity|]. split; apply (bool_decide_unpack _); vm_compute; exact I. Qed.

(** Finish succeeds even if a go.mod file cannot be updated; the modules then do not find each other. *)
Theorem C51_reports_failed_updates_refuted : ∃ os w ok dirs dk mf,
  wrun empty_workspace os = (w, [Some "runtime"; Some "user_proc"]) ∧
  finish (λ _, true) ok true (map_to_list (modules w)) w = Some (dirs, dk) ∧
  dk !! "user_proc" = Some mf ∧ mf_replace mf !! "bp/runtime" = None.
Proof.
  exists [WLocal "runtime" (Some (Modfile "bp/runtime" ∅ ∅)) true true; WCreate "gen/user_proc" true true].
  eexists _, (λ _, false), _, _, _. split_and!; vm_compute; reflexivity.
Qed.
Print Assumptions C51_reports_failed_updates_refuted.

(** C52. Adding modules to a module builder, in any number of calls: if they all succeed, the modules that are not local are
    required, each once, and nothing else is. *)
Fixpoint add_all_to_module (rv : gset string) (rq : list (string * string)) (calls : list (list pmod)) : gset string * list (string * string) * bool :=
  match calls with
  | [] => (rv, rq, true)
  | c :: r => let '(rv1, rq1, ok) := add_to_module rv rq c in if ok then add_all_to_module rv1 rq1 r else (rv1, rq1, false)
  end.

Lemma add_to_module_spec mods : ∀ rv rq rv' rq' ok, (∀ x, x ∈ rv ↔ x ∈ rq.*1) → NoDup rq.*1 → (∀ v, v ∈ rq.*2 → v ≠ "") →
  add_to_module rv rq mods = (rv', rq', ok) →
  (ok = true → (∀ x, x ∈ rv' ↔ x ∈ rq'.*1) ∧ ∀ x, x ∈ rq'.*1 ↔ x ∈ rq.*1 ∨ ∃ m, m ∈ mods ∧ pm_local m = false ∧ pm_name m = x) ∧
  NoDup rq'.*1 ∧ (∀ v, v ∈ rq'.*2 → v ≠ "") ∧ rq `prefix_of` rq' ∧
  (∀ nv, nv ∈ rq' → nv ∈ rq ∨ ∃ m, m ∈ mods ∧ pm_local m = false ∧ nv = (pm_name m, pm_version m)) ∧
  (ok = false → ∃ m, m ∈ mods ∧ pm_local m = false ∧ pm_version m = "").
Proof.
  induction mods as [|m r IH]; intros rv rq rv' rq' ok HV ND HN H.
  - injection H as <- <- <-. split_and!; try done; [|by left]. intros _. split; [done|]. intros x. split; [by left|]. intros [?|(m & Hm & _)]; [done|by apply elem_of_nil in Hm].
  - assert (∀ rv rq rv' rq' ok, (∀ x, x ∈ rv ↔ x ∈ rq.*1) → NoDup rq.*1 → (∀ v, v ∈ rq.*2 → v ≠ "") → (pm_local m = true ∨ pm_name m ∈ rv) →
      add_to_module rv rq r = (rv', rq', ok) →
      (ok = true → (∀ x, x ∈ rv' ↔ x ∈ rq'.*1) ∧ ∀ x, x ∈ rq'.*1 ↔ x ∈ rq.*1 ∨ ∃ m', m' ∈ m :: r ∧ pm_local m' = false ∧ pm_name m' = x) ∧
      NoDup rq'.*1 ∧ (∀ v, v ∈ rq'.*2 → v ≠ "") ∧ rq `prefix_of` rq' ∧
      (∀ nv, nv ∈ rq' → nv ∈ rq ∨ ∃ m', m' ∈ m :: r ∧ pm_local m' = false ∧ nv = (pm_name m', pm_version m')) ∧
      (ok = false → ∃ m', m' ∈ m :: r ∧ pm_local m' = false ∧ pm_version m' = "")) as K.
    { clear -IH. intros rv rq rv' rq' ok HV ND HN HM H. destruct (IH _ _ _ _ _ HV ND HN H) as (I1 & I2 & I3 & I4 & I5 & I6). split_and!; try done.
      - intros Eok. destruct (I1 Eok) as [J1 J2]. split; [done|]. intros x. rewrite J2. split.
        + intros [?|(m' & Hm & ?)]; [by left|right; exists m'; split; [by right|done]].
        + intros [?|(m' & Hm & L & N)]; [by left|]. apply elem_of_cons in Hm as [->|Hm]; [|right; eauto].
          left. destruct HM as [?|HM]; [congruence|]. apply HV. by rewrite <-N.
      - intros nv Hnv. destruct (I5 nv Hnv) as [?|(m' & Hm & ?)]; [by left|right; exists m'; split; [by right|done]].
      - intros Eok. destruct (I6 Eok) as (m' & Hm & ?). exists m'. split; [by right|done]. }
    cbn in H. destruct (pm_local m) eqn:L; [by eapply K; eauto|]. case_bool_decide as B; [eapply K; eauto|].
    unfold require in H. case_bool_decide as BV.
    + injection H as <- <- <-. split_and!; try done; [by left|]. intros _. exists m. split; [left|done].
    + assert (pm_name m ∉ rq.*1) as NI by (by rewrite <-HV).
      destruct (K ({[pm_name m]} ∪ rv) (rq ++ [(pm_name m, pm_version m)]) rv' rq' ok) as (I1 & I2 & I3 & I4 & I5 & I6); try done.
      * intros x. rewrite fmap_app, elem_of_app, elem_of_union, elem_of_singleton, HV. cbn. rewrite elem_of_list_singleton. tauto.
      * rewrite fmap_app. apply NoDup_app. split_and!; [done| |apply NoDup_singleton]. cbn. intros x Hx ->%elem_of_list_singleton. done.
      * intros v. rewrite fmap_app, elem_of_app. cbn. rewrite elem_of_list_singleton. intros [?| ->]; [by apply HN|done].
      * right. set_solver.
      * split_and!; try done.
        -- intros Eok. destruct (I1 Eok) as [J1 J2]. split; [done|]. intros x. rewrite J2, fmap_app, elem_of_app. cbn. rewrite elem_of_list_singleton.
           split; [intros [[?| ->]|?]; [by left| |by right]|tauto]. right. exists m. split; [left|done].
        -- etrans; [|exact I4]. by exists [(pm_name m, pm_version m)].
        -- intros nv Hnv. destruct (I5 nv Hnv) as [Hx|?]; [|by right]. apply elem_of_app in Hx as [?|Hx%elem_of_list_singleton]; [by left|].
           right. exists m. split; [left|done].
Qed.

Theorem C52_modules_are_required_once : ∀ calls rv rq ok,
  add_all_to_module ∅ [] calls = (rv, rq, ok) →
  NoDup rq.*1 ∧ (∀ nv, nv ∈ rq → ∃ m, m ∈ concat calls ∧ pm_local m = false ∧ nv = (pm_name m, pm_version m) ∧ pm_version m ≠ "") ∧
  (ok = true → ∀ m, m ∈ concat calls → pm_local m = false → pm_name m ∈ rq.*1) ∧
  (ok = false → ∃ m, m ∈ concat calls ∧ pm_local m = false ∧ pm_version m = "").
Proof.
  assert (∀ calls rv0 rq0 rv rq ok, (∀ x, x ∈ rv0 ↔ x ∈ rq0.*1) → NoDup rq0.*1 → (∀ v, v ∈ rq0.*2 → v ≠ "") →
    add_all_to_module rv0 rq0 calls = (rv, rq, ok) →
    NoDup rq.*1 ∧ (∀ v, v ∈ rq.*2 → v ≠ "") ∧ rq0 `prefix_of` rq ∧ (∀ nv, nv ∈ rq → nv ∈ rq0 ∨ ∃ m, m ∈ concat calls ∧ pm_local m = false ∧ nv = (pm_name m, pm_version m)) ∧
    (ok = true → ∀ m, m ∈ concat calls → pm_local m = false → pm_name m ∈ rq.*1) ∧
    (ok = false → ∃ m, m ∈ concat calls ∧ pm_local m = false ∧ pm_version m = "")) as K.
  { induction calls as [|c r IH]; intros rv0 rq0 rv rq ok HV ND HN H.
    - injection H as <- <- <-. split_and!; try done; [by left|]. intros _ m Hm. by apply elem_of_nil in Hm.
    - cbn in H. destruct (add_to_module rv0 rq0 c) as [[rv1 rq1] ok1] eqn:E1.
      destruct (add_to_module_spec c _ _ _ _ _ HV ND HN E1) as (I1 & I2 & I3 & I4 & I5 & I6). destruct ok1.
      + destruct (I1 eq_refl) as [J1 J2]. destruct (IH _ _ _ _ _ J1 I2 I3 H) as (K1 & K2 & K3 & K4 & K5 & K6). split_and!; try done.
        * by etrans.
        * intros nv Hnv. destruct (K4 nv Hnv) as [Hx|(m & Hm & ?)].
          -- destruct (I5 nv Hx) as [?|(m & Hm & ?)]; [by left|right; exists m; split; [|done]]. cbn. apply elem_of_app. by left.
          -- right. exists m. split; [|done]. cbn. apply elem_of_app. by right.
        * intros Eok m Hm L. cbn in Hm. apply elem_of_app in Hm as [Hm|Hm]; [|by apply K5].
          assert (pm_name m ∈ rq1.*1) as X by (apply J2; right; eauto). destruct K3 as [k ->]. rewrite fmap_app. apply elem_of_app. by left.
        * intros Eok. destruct (K6 Eok) as (m & Hm & ?). exists m. split; [cbn; apply elem_of_app; by right|done].
      + injection H as <- <- <-. split_and!; try done.
        * intros nv Hnv. destruct (I5 nv Hnv) as [?|(m & Hm & ?)]; [by left|right; exists m; split; [|done]]. cbn. apply elem_of_app. by left.
        * intros _. destruct (I6 eq_refl) as (m & Hm & ?). exists m. split; [cbn; apply elem_of_app; by left|done]. }
  intros calls rv rq ok H. destruct (K calls ∅ [] rv rq ok) as (K1 & K2 & K3 & K4 & K5 & K6); try done.
  - intros x. cbn. set_solver.
  - constructor.
  - cbn. intros v Hv. by apply elem_of_nil in Hv.
  - split_and!; try done. intros nv Hnv. destruct (K4 nv Hnv) as [Hx|(m & Hm & L & ->)]; [by apply elem_of_nil in Hx|].
    exists m. split_and!; try done. apply K2. by apply (elem_of_list_fmap_1 snd) in Hnv.
Qed.
Print Assumptions C52_modules_are_required_once.

(** Adding modules to a workspace, in any number of calls: if each call has at most one local module and all succeed, all
    local modules are in the workspace. *)
Fixpoint add_all_to_workspace (w : workspace) (calls : list (list pmod)) : workspace * bool :=
  match calls with
  | [] => (w, true)
  | c :: r => let '(w1, ok) := add_to_workspace w c in if ok then add_all_to_workspace w1 r else (w1, false)
  end.
Definition parsed_ok (m : pmod) : Prop := ∃ mf, pm_file m = Some mf ∧ mf_path mf = pm_name m.
Definition one_local (c : list pmod) : Prop := ∀ m1 m2, m1 ∈ c → m2 ∈ c → pm_local m1 = true → pm_local m2 = true → m1 = m2.

Lemma add_local_grows w s src a b p : is_Some (get_local_module w p) → is_Some (get_local_module (add_local_module w s src a b).1 p).
Proof.
  intros [d H]. unfold get_local_module in *. unfold add_local_module. destruct src as [mf|]; [|by eexists].
  destruct (module_dirs w !! mf_path mf) as [s'|] eqn:E; [case_bool_decide; by eexists|].
  assert (is_Some (<[mf_path mf:=s]> (module_dirs w) !! p)) as G.
  { destruct (decide (p = mf_path mf)) as [->|N]; [rewrite lookup_insert|rewrite lookup_insert_ne by done]; by eexists. }
  cbn. destruct (modules w !! s) as [q|]; [by case_bool_decide|]. by destruct a.
Qed.
Lemma add_local_present w s mf a b : is_Some (add_local_module w s (Some mf) a b).2 → is_Some (get_local_module (add_local_module w s (Some mf) a b).1 (mf_path mf)).
Proof.
  intros H. unfold get_local_module. unfold add_local_module in *. destruct (module_dirs w !! mf_path mf) as [s'|] eqn:E.
  { case_bool_decide; cbn; eexists; exact E. }
  cbn in *. destruct (modules w !! s) as [q|]; [case_bool_decide; cbn; rewrite lookup_insert; by eexists|].
  destruct a; cbn; rewrite lookup_insert; by eexists.
Qed.

Lemma add_local_vis w s src a b : vis (add_local_module w s src a b).1 = vis w.
Proof.
  unfold add_local_module. destruct src as [mf|]; [|done]. destruct (module_dirs w !! mf_path mf); [by case_bool_decide|]. cbn.
  destruct (modules w !! s); [by case_bool_decide|]. by destruct a.
Qed.

Lemma add_to_workspace_spec c : ∀ w w', (∀ x, x ∈ vis w → is_Some (get_local_module w x)) → one_local c → (∀ m, m ∈ c → pm_local m = true → parsed_ok m) →
  add_to_workspace w c = (w', true) →
  (∀ x, x ∈ vis w' → is_Some (get_local_module w' x)) ∧ (∀ x, is_Some (get_local_module w x) → is_Some (get_local_module w' x)) ∧
  ∀ m, m ∈ c → pm_local m = true → is_Some (get_local_module w' (pm_name m)).
Proof.
  induction c as [|m r IH]; intros w w' HV OL PO H.
  - injection H as <-. split_and!; try done. intros m Hm. by apply elem_of_nil in Hm.
  - assert (one_local r) as OL' by (intros m1 m2 H1 H2; apply OL; by right).
    assert (∀ m, m ∈ r → pm_local m = true → parsed_ok m) as PO' by (intros m' Hm; apply PO; by right).
    cbn in H. destruct (pm_local m) eqn:L.
    + assert (∀ m', m' ∈ m :: r → pm_local m' = true → m' = m) as OM by (intros m' Hm' L'; apply OL; [done|left|done|done]).
      set (w1 := Workspace (module_dirs w) (modules w) (generated w) (disk w) ({[pm_name m]} ∪ vis w)) in H.
      case_bool_decide as V.
      * destruct (IH w1 w') as (I1 & I2 & I3); try done.
        { intros x Hx. cbn in Hx. apply elem_of_union in Hx as [->%elem_of_singleton|Hx]; by apply HV. }
        split_and!; [done|done|]. intros m' Hm' L'. rewrite (OM m' Hm' L'). apply I2. by apply HV.
      * destruct (PO m) as (mf & Ef & Ep); [left|done|]. rewrite Ef in H.
        destruct (add_local_module w1 (pm_short m) (Some mf) true true) as [w2 res] eqn:E2. injection H as <- HB. apply bool_decide_eq_true in HB.
        pose proof (add_local_present w1 (pm_short m) mf true true) as P. rewrite E2, Ep in P. specialize (P HB).
        pose proof (λ p, add_local_grows w1 (pm_short m) (Some mf) true true p) as GR. rewrite E2 in GR. cbn [fst] in GR, P.
        split_and!.
        -- intros x Hx. pose proof (add_local_vis w1 (pm_short m) (Some mf) true true) as EV. rewrite E2 in EV. cbn [fst] in EV. rewrite EV in Hx.
           cbn in Hx. apply elem_of_union in Hx as [->%elem_of_singleton|Hx]; [done|]. apply GR. by apply HV.
        -- intros x Hx. by apply GR.
        -- intros m' Hm' L'. by rewrite (OM m' Hm' L').
    + destruct (IH w w' HV OL' PO' H) as (I1 & I2 & I3). split_and!; [done|done|].
      intros m' Hm' L'. apply elem_of_cons in Hm' as [->|Hm']; [congruence|by apply I3].
Qed.

Theorem C52_local_modules_are_copied : ∀ calls w,
  add_all_to_workspace empty_workspace calls = (w, true) →
  (∀ c, c ∈ calls → one_local c) → (∀ m, m ∈ concat calls → pm_local m = true → parsed_ok m) →
  ∀ m, m ∈ concat calls → pm_local m = true → is_Some (get_local_module w (pm_name m)).
Proof.
  assert (∀ calls w0 w, (∀ x, x ∈ vis w0 → is_Some (get_local_module w0 x)) →
    add_all_to_workspace w0 calls = (w, true) →
    (∀ c, c ∈ calls → one_local c) → (∀ m, m ∈ concat calls → pm_local m = true → parsed_ok m) →
    (∀ x, is_Some (get_local_module w0 x) → is_Some (get_local_module w x)) ∧
    ∀ m, m ∈ concat calls → pm_local m = true → is_Some (get_local_module w (pm_name m))) as K.
  { induction calls as [|c r IH]; intros w0 w HV H OL PO.
    - injection H as <-. split; [done|]. intros m Hm. by apply elem_of_nil in Hm.
    - cbn in H. destruct (add_to_workspace w0 c) as [w1 ok1] eqn:E1. destruct ok1; [|done].
      destruct (add_to_workspace_spec c w0 w1 HV) as (I1 & I2 & I3); [apply OL; left|intros m Hm; apply PO; cbn; apply elem_of_app; by left|done|].
      destruct (IH w1 w I1 H) as (J1 & J2); [intros c' Hc; apply OL; by right|intros m Hm; apply PO; cbn; apply elem_of_app; by right|].
      split; [intros x Hx; by apply J1, I2|]. intros m Hm L. cbn in Hm. apply elem_of_app in Hm as [Hm|Hm]; [by apply J1, I3|by apply J2]. }
  intros calls w H OL PO. apply (K calls empty_workspace w); done.
Qed.
Print Assumptions C52_local_modules_are_copied.

Definition ex_mod (n s : string) (loc : bool) : pmod := PMod n s (Some (Modfile n ∅ ∅)) "v1.2.3" loc.
Example C52_nonvacuous :
  let calls := [[ex_mod "app/wf" "wf" true; ex_mod "gh/x" "x" false]; [ex_mod "app/wf" "wf" true]; [ex_mod "bp/runtime" "runtime" true; ex_mod "gh/x" "x" false]] in
  (add_all_to_workspace empty_workspace calls).2 = true ∧ (∀ c, c ∈ calls → one_local c) ∧
  (∀ m, m ∈ concat calls → pm_local m = true → parsed_ok m) ∧
  add_all_to_module ∅ [] calls = ({["gh/x"]}, [("gh/x", "v1.2.3")], true).
Proof.
  cbn zeta. split_and!; [vm_compute; reflexivity| | |].
  - intros c Hc m1 m2 H1 H2. set_unfold in Hc. destruct Hc as [->|[->|[->|[]]]]; set_unfold in H1; set_unfold in H2; naive_solver.
  - intros m Hm L. set_unfold in Hm. destruct Hm as [->|[->|[->|[->|[->|[]]]]]]; cbn in L; try done; eexists; done.
  - apply (bool_decide_unpack _); vm_compute; exact I.
Qed.

(** A service whose interface and implementation are in two local modules: only the first one is added. *)
Theorem C52_both_modules_of_a_service_refuted : ∃ iface impl w,
  pm_local iface = true ∧ pm_local impl = true ∧ parsed_ok iface ∧ parsed_ok impl ∧
  add_to_workspace empty_workspace [iface; impl] = (w, true) ∧
  get_local_module w (pm_name iface) = Some "api" ∧ get_local_module w (pm_name impl) = None.
Proof.
  exists (ex_mod "app/api" "api" true), (ex_mod "app/impl" "impl" true). eexists.
  split_and!; [done|done|by eexists|by eexists|vm_compute; reflexivity|vm_compute; reflexivity|vm_compute; reflexivity].
Qed.
Print Assumptions C52_both_modules_of_a_service_refuted.
