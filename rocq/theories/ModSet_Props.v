(** * C63: module sets *)
From Verif Require Import ModSet_Model ModSet_Spec ModSet_Proof.
Set Default Proof Using "Type".
Open Scope string_scope.
Open Scope list_scope.

(** C63. A directory is parsed at most once: all sets that have it share one module, which is the one read from there. *)
Theorem C63_one_module_per_directory : ∀ clean w i j d m m', clean_ok clean → reachable clean w →
  under_dir w i d m → under_dir w j d m' → m = m' ∧ read_from w m d.
Proof.
  intros clean w i j d m m' Hc Hr (s & Hs & Hd) (s' & Hs' & Hd'). pose proof (reachable_inv clean Hc w Hr) as I.
  pose proof (si_dirs _ _ _ (i_sets _ _ I i s Hs) _ _ Hd) as H. pose proof (si_dirs _ _ _ (i_sets _ _ I j s' Hs') _ _ Hd') as H'.
  split; [congruence|]. destruct (i_cache _ _ I _ _ H) as (x & Hx & ? & _). unfold read_from. rewrite Hx. simpl. congruence.
Qed.
Print Assumptions C63_one_module_per_directory.
Theorem C63_one_directory_per_module : ∀ clean w m m' d, clean_ok clean → reachable clean w →
  read_from w m d → read_from w m' d → m = m'.
Proof.
  intros clean w m m' d Hc Hr H H'. pose proof (reachable_inv clean Hc w Hr) as I. unfold read_from in *.
  destruct (w_heap w !! m) as [x|] eqn:E; [|done]. destruct (w_heap w !! m') as [y|] eqn:E'; [|done].
  pose proof (i_heap _ _ I _ _ E). pose proof (i_heap _ _ I _ _ E'). simpl in *. congruence.
Qed.
Print Assumptions C63_one_directory_per_module.

(** C63. Whatever is called later, and whatever happens to the files, a set keeps its directories and each module its
    name, directory and packages. *)
Theorem C63_modules_stay : ∀ clean w o i d m n name p, clean_ok clean → reachable clean w → op_ok o →
  let w' := (mstep clean w o).1 in
  (under_dir w i d m → under_dir w' i d m) ∧ (called w m n → called w' m n) ∧ (read_from w m d → read_from w' m d) ∧
  (has_pkg w m name p ↔ has_pkg w' m name p ∧ ∃ d, read_from w m d).
Proof.
  intros clean w o i d m n name p Hc Hr Ho. simpl. pose proof (reachable_inv clean Hc w Hr) as I.
  assert ((∃ fs, o = Files fs) ∨ (∀ fs, o ≠ Files fs)) as [[fs ->]|Hfs] by (destruct o; eauto).
  - simpl. split_and!; try done. split; [|naive_solver]. intros H. split; [done|]. destruct H as (x & Hx & _). exists (pm_dir x). unfold read_from. by rewrite Hx.
  - destruct (mstep_ext clean Hc w o I Ho Hfs) as [F O N C S]. unfold under_dir, called, read_from, has_pkg. split_and!.
    + intros (s & Hs & Hd). destruct (S i s Hs) as (s' & ? & Hsub & _). exists s'. split; [done|by eapply lookup_weaken].
    + destruct (w_heap w !! m) as [x|] eqn:E; [|done]. destruct (O m x E) as [b ->]. done.
    + destruct (w_heap w !! m) as [x|] eqn:E; [|done]. destruct (O m x E) as [b ->]. done.
    + destruct (w_heap w !! m) as [x|] eqn:E.
      * destruct (O m x E) as [b ->]. split.
        -- intros (y & [= <-] & Hp). split; [eexists; split; [done|]; done|]. exists (pm_dir x). done.
        -- intros [(y & [= <-] & Hp) _]. exists x. done.
      * split; [naive_solver|]. intros [_ [d' Hd]]. done.
Qed.
Print Assumptions C63_modules_stay.

(** C63. A module is what its directory held when it was first asked for. *)
Theorem C63_snapshot : ∀ clean fs os m d n, clean_ok clean → fs_ok fs → Forall op_ok os →
  let w := mrun clean (world0 fs) os in
  read_from w m d → called w m n →
  ∃ os1 o os2 ps, os = os1 ++ o :: os2 ∧
    let before := mrun clean (world0 fs) os1 in
    unseen before d ∧ read_from (mstep clean before o).1 m d ∧
    w_fs before d = Some (n, ps) ∧ ∀ name p, has_pkg w m name p ↔ ps !! name = Some p.
Proof.
  intros clean fs os m d n Hc Hfs Hos w. unfold w. clear w. induction os as [|o os IH] using rev_ind.
  { intros H. unfold read_from in H. simpl in H. by destruct m. }
  apply Forall_app in Hos as [Hos Ho]. apply Forall_cons in Ho as [Ho _]. specialize (IH Hos).
  assert (mrun clean (world0 fs) (os ++ [o]) = (mstep clean (mrun clean (world0 fs) os) o).1) as -> by (unfold mrun; by rewrite fold_left_app).
  set (w := mrun clean (world0 fs) os) in *.
  assert (reachable clean w) as Hr by (exists fs, os; done).
  intros Hd Hn. destruct (w_heap w !! m) as [x|] eqn:Ex.
  - (* it was there before *)
    assert (read_from w m d ∧ called w m n) as [Hd0 Hn0].
    { assert (read_from w m (pm_dir x) ∧ called w m (pm_name x)) as [H1 H2] by (unfold read_from, called; by rewrite Ex).
      destruct (C63_modules_stay clean w o 0 (pm_dir x) m (pm_name x) "" 0 Hc Hr Ho) as (_ & H3 & H4 & _).
      specialize (H3 H2). specialize (H4 H1). unfold read_from, called in *. simpl in *. split; congruence. }
    destruct (IH Hd0 Hn0) as (os1 & o1 & os2 & ps & E & Hu & Hm & Hf & Hp). exists os1, o1, (os2 ++ [o]), ps.
    split; [rewrite E, <- (assoc_L (++)); done|]. split; [done|]. split; [done|]. split; [done|].
    intros name p. rewrite <- Hp. destruct (C63_modules_stay clean w o 0 d m n name p Hc Hr Ho) as (_ & _ & _ & H). rewrite H.
    split; [|naive_solver]. intros ?. split; [done|eauto].
  - pose proof (reachable_inv clean Hc w Hr) as I.
    assert (∀ fs, o ≠ Files fs) as Hfo. { intros fs' ->. unfold read_from in Hd. simpl in Hd. by rewrite Ex in Hd. }
    destruct (mstep_ext clean Hc w o I Ho Hfo) as [F O N C S].
    pose proof (mstep_inv clean Hc w o I Ho) as I'.
    unfold read_from, called in Hd, Hn. destruct (w_heap (mstep clean w o).1 !! m) as [y|] eqn:Ey; [|done]. injection Hd as <-. injection Hn as <-.
    exists os, o, [], (pm_pkgs y). split; [done|]. fold w. split; [|split; [|split]].
    + intros k Hk. unfold read_from in Hk. destruct (w_heap w !! k) as [z|] eqn:Ez; [|done]. injection Hk as Hk.
      destruct (O k z Ez) as [b Hb]. pose proof (i_heap _ _ I' _ _ Hb) as H1. pose proof (i_heap _ _ I' _ _ Ey) as H2. simpl in H1. rewrite Hk in H1. congruence.
    + unfold read_from. by rewrite Ey.
    + by apply (N m y Ey).
    + intros name p. unfold has_pkg. rewrite Ey. naive_solver.
Qed.
Print Assumptions C63_snapshot.

(** C63. AddModules succeeds exactly if every directory is in the set, or has been parsed before, or can be parsed and
    holds a module whose name the set does not have. *)
Theorem C63_add_modules_succeeds_iff : ∀ clean w i ds, clean_ok clean → reachable clean w → i < length (w_sets w) →
  (mstep clean w (AddMods i ds)).2 = ROk true ↔
  ∀ d, d ∈ ds → (∃ m, under_dir w i (clean d) m) ∨ (∃ m, read_from w m (clean d)) ∨
    ∃ n ps, w_fs w (clean d) = Some (n, ps) ∧ ∀ m, ¬ under_name w i n m.
Proof.
  intros clean w i ds Hc Hr Hi. pose proof (reachable_inv clean Hc w Hr) as I. destruct (lookup_lt_is_Some_2 _ _ Hi) as [s Hs].
  simpl. destruct (add_modules_spec clean Hc w i ds s I Hs) as (w' & b & -> & _ & _ & _ & _ & _ & _ & Hok & _). simpl.
  transitivity (b = true); [naive_solver|]. rewrite Hok. apply forall_proper. intros d. apply forall_proper. intros _. unfold dir_ok, under_dir, under_name, read_from.
  rewrite Hs. split.
  - intros [[m Hm]|[[m Hm]|(n & ps & Hn & Hno)]]; [left; eauto|right; left|right; right].
    + destruct (i_cache _ _ I _ _ Hm) as (x & Hx & Hxd & _). exists m. rewrite Hx. simpl. by rewrite Hxd.
    + exists n, ps. split; [done|]. naive_solver.
  - intros [(m & s' & [= <-] & Hm)|[[m Hm]|(n & ps & Hn & Hno)]]; [left; eauto|right; left|right; right].
    + destruct (w_heap w !! m) as [x|] eqn:Ex; [|done]. injection Hm as <-. exists m. by apply (i_heap _ _ I).
    + exists n, ps. split; [done|]. destruct (ms_modules s !! n) as [m|] eqn:E; [|done]. exfalso. apply (Hno m). eauto.
Qed.
Print Assumptions C63_add_modules_succeeds_iff.

(** C63. If it succeeds the set has the given directories and those it had; other sets do not change.  If it fails no set
    changes. *)
Theorem C63_add_modules_adds_exactly : ∀ clean w i ds b, clean_ok clean → reachable clean w → i < length (w_sets w) →
  (mstep clean w (AddMods i ds)).2 = ROk b →
  let w' := (mstep clean w (AddMods i ds)).1 in
  (b = true → ∀ d m, under_dir w' i d m ↔ under_dir w i d m ∨ (read_from w' m d ∧ ∃ d', d' ∈ ds ∧ clean d' = d)) ∧
  (b = true → ∀ d, d ∈ ds → ∃ m, under_dir w' i (clean d) m) ∧
  (b = true → ∀ n m, under_name w' i n m → under_name w i n m ∨ ∃ d, d ∈ ds ∧ read_from w' m (clean d)) ∧
  (∀ j d m, j ≠ i ∨ b = false → under_dir w' j d m ↔ under_dir w j d m) ∧
  (∀ j n m, j ≠ i ∨ b = false → under_name w' j n m ↔ under_name w j n m).
Proof.
  intros clean w i ds b Hc Hr Hi. pose proof (reachable_inv clean Hc w Hr) as I. destruct (lookup_lt_is_Some_2 _ _ Hi) as [s Hs].
  simpl. destruct (add_modules_spec clean Hc w i ds s I Hs) as (w' & b' & -> & I' & _ & _ & Hj & _ & Hb0 & _ & Hb1). simpl. intros [= ->].
  assert (∀ m d, read_from w' m d ↔ w_cache w' !! d = Some m) as Hrf.
  { intros m d. unfold read_from. split.
    - destruct (w_heap w' !! m) as [x|] eqn:Ex; [|done]. intros [= <-]. by apply (i_heap _ _ I').
    - intros H. destruct (i_cache _ _ I' _ _ H) as (x & -> & <- & _). done. }
  unfold under_dir, under_name. split_and!.
  - intros ->. destruct Hb1 as (s' & Hs' & Hd & _); [done|]. intros d m. rewrite Hs, Hs', Hrf. split.
    + intros (? & [= <-] & H). apply Hd in H as [H|H]; [left; eauto|by right].
    + intros [(? & [= <-] & H)|H]; exists s'; (split; [done|]); apply Hd; [by left|by right].
  - intros ->. destruct Hb1 as (s' & Hs' & _ & Hin & _); [done|]. intros d Hdin. destruct (Hin d Hdin) as [m Hm]. eauto.
  - intros ->. destruct Hb1 as (s' & Hs' & _ & _ & Hn); [done|]. intros n m. rewrite Hs, Hs'. intros (? & [= <-] & H).
    destruct (Hn n m H) as [?|(d & ? & ?)]; [left; eauto|right]. exists d. by rewrite Hrf.
  - intros j d m [Hne| ->]; [by rewrite Hj|by rewrite Hb0].
  - intros j d m [Hne| ->]; [by rewrite Hj|by rewrite Hb0].
Qed.
Print Assumptions C63_add_modules_adds_exactly.

(** C63. A second directory with a module the set has already is an error, provided nobody has parsed the directory
    yet ... *)
Theorem C63_redeclaration_rejected : ∀ clean w i ds d n ps m, clean_ok clean → reachable clean w →
  d ∈ ds → unseen w (clean d) → w_fs w (clean d) = Some (n, ps) → under_name w i n m →
  (mstep clean w (AddMods i ds)).2 = ROk false.
Proof.
  intros clean w i ds d n ps m Hc Hr Hd Hu Hf Hn. pose proof (reachable_inv clean Hc w Hr) as I.
  assert (i < length (w_sets w)) as Hi. { destruct Hn as (s & Hs & _). by eapply lookup_lt_Some. }
  destruct ((mstep clean w (AddMods i ds)).2) as [|b| | |] eqn:E; simpl in E; try (by destruct (add_modules clean w i ds)).
  destruct b; [|done]. exfalso. assert ((mstep clean w (AddMods i ds)).2 = ROk true) as E' by done.
  rewrite C63_add_modules_succeeds_iff in E' by done. destruct (E' d Hd) as [(m' & s & Hs & Hm)|[[m' Hm]|(n' & ps' & Hf' & Hno)]].
  - pose proof (si_dirs _ _ _ (i_sets _ _ I i s Hs) _ _ Hm) as H. destruct (i_cache _ _ I _ _ H) as (x & Hx & Hxd & _). apply (Hu m'). unfold read_from. rewrite Hx. simpl. by rewrite Hxd.
  - by apply (Hu m').
  - rewrite Hf in Hf'. injection Hf' as <- <-. by apply (Hno m).
Qed.
Print Assumptions C63_redeclaration_rejected.
Definition twice : fsys := λ d, if bool_decide (d = "/x" ∨ d = "/y") then Some ("lib", {["lib" := 1]}) else None.
Lemma twice_ok : fs_ok twice.
Proof. intros d n ps name H [p Hp]. unfold twice in H. case_bool_decide; [|done]. injection H as <- <-. apply lookup_singleton_Some in Hp as [<- _]. by exists "". Qed.
(** ... and otherwise it is not: the first set takes over the module that another set has parsed.  Under the name only the
    second is found then. *)
Theorem C63_redeclaration_rejected_refuted : ¬ (∀ clean w i ds d n ps m, clean_ok clean → reachable clean w →
  d ∈ ds → w_fs w (clean d) = Some (n, ps) → under_name w i n m → ¬ under_dir w i (clean d) m →
  (mstep clean w (AddMods i ds)).2 = ROk false).
Proof.
  intros H. set (w := mrun id (world0 twice) [NewSet None; NewSet None; AddMods 0 ["/x"]; AddMods 1 ["/y"]]).
  assert ((mstep id w (AddMods 0 ["/y"])).2 = ROk true) as E by (by vm_compute).
  rewrite (H id w 0 ["/y"] "/y" "lib" {["lib" := 1]} 0) in E; [done|done| |by left|done| |].
  - exists twice, [NewSet None; NewSet None; AddMods 0 ["/x"]; AddMods 1 ["/y"]]. split; [apply twice_ok|]. split; [by repeat constructor|done].
  - eexists. split; [by vm_compute|by vm_compute].
  - intros (s & Hs & Hm). vm_compute in Hs. injection Hs as <-. by vm_compute in Hm.
Qed.
Print Assumptions C63_redeclaration_rejected_refuted.

(** C63. Under a name a set has a module of that name that it also has under its directory, and it has some module under the
    name of each of its modules ... *)
Theorem C63_names_are_consistent : ∀ clean w i n m, clean_ok clean → reachable clean w →
  (under_name w i n m → called w m n ∧ ∃ d, read_from w m d ∧ under_dir w i d m) ∧
  (∀ d, under_dir w i d m → called w m n → ∃ m', under_name w i n m') ∧
  (names_unique w → under_name w i n m ↔ called w m n ∧ ∃ d, under_dir w i d m).
Proof.
  intros clean w i n m Hc Hr. pose proof (reachable_inv clean Hc w Hr) as I.
  assert (under_name w i n m → called w m n ∧ ∃ d, read_from w m d ∧ under_dir w i d m) as H1.
  { intros (s & Hs & Hn). destruct (si_mods _ _ _ (i_sets _ _ I i s Hs) _ _ Hn) as (x & Hx & <- & Hd). unfold called, read_from. rewrite Hx. split; [done|].
    exists (pm_dir x). split; [done|by exists s]. }
  assert (∀ d, under_dir w i d m → called w m n → ∃ m', under_name w i n m') as H2.
  { intros d (s & Hs & Hd) Hn. unfold called in Hn. destruct (w_heap w !! m) as [x|] eqn:Ex; [|done]. injection Hn as <-.
    destruct (si_names _ _ _ (i_sets _ _ I i s Hs) _ _ _ Hd Ex) as [m' Hm']. by exists m', s. }
  split_and!; [done|done|]. intros Hu. split.
  - intros H. destruct (H1 H) as (? & d & _ & ?). eauto.
  - intros [Hn [d Hd]]. destruct (H2 d Hd Hn) as [m' Hm']. assert (m' = m) as ->; [|done].
    destruct Hm' as (s & Hs & Hm'). destruct (si_mods _ _ _ (i_sets _ _ I i s Hs) _ _ Hm') as (x & Hx & Hxn & _).
    apply (Hu m' m n); [|done]. unfold called. rewrite Hx. simpl. by rewrite Hxn.
Qed.
Print Assumptions C63_names_are_consistent.
(** ... but not every module it has under a directory is found under its name: two directories given in one call are not
    compared. *)
Theorem C63_names_complete_refuted : ¬ (∀ clean w i d n m, clean_ok clean → reachable clean w →
  under_dir w i d m → called w m n → under_name w i n m).
Proof.
  intros H. set (w := mrun id (world0 twice) [NewSet None; AddMods 0 ["/x"; "/y"]]).
  destruct (H id w 0 "/x" "lib" 0) as (s & Hs & Hm); [done| | |by vm_compute|].
  - exists twice, [NewSet None; AddMods 0 ["/x"; "/y"]]. split; [apply twice_ok|]. split; [by repeat constructor|done].
  - eexists. split; by vm_compute.
  - vm_compute in Hs. injection Hs as <-. by vm_compute in Hm.
Qed.
Print Assumptions C63_names_complete_refuted.

(** C63. GetPackage returns a package with the requested name from the nearest set that has it; only if the set and its
    parents do not, the module that the Go tool names is added to the last parent and the package taken from it. *)
Theorem C63_get_package : ∀ clean w i l name ord find, clean_ok clean → reachable clean w → order_ok ord → chain w i l →
  let w' := (mstep clean w (GetPkg i name ord find)).1 in
  ∃ r, (mstep clean w (GetPkg i name ord find)).2 = RPkg r ∧
  ((∃ k m p, nearest w l name k ∧ offers w k name m p ∧ r = PPkg m p ∧ w' = w) ∨
   (∀ j m p, j ∈ l → ¬ offers w j name m p) ∧
   match find name with
   | None => r = PErr ∧ w' = w
   | Some (d, local) =>
       (∀ m p, r = PPkg m p → has_pkg w' m name p ∧ is_local w' m local ∧ ∃ root, last l = Some root ∧ under_dir w' root d m) ∧
       (r = PErr → (∃ m, read_from w' m d ∧ ∀ p, ¬ has_pkg w' m name p) ∨
          (unseen w (clean d) ∧ ∀ n ps, w_fs w (clean d) = Some (n, ps) → ∃ root m, last l = Some root ∧ under_name w root n m)) ∧
       (r = PPanic → clean d ≠ d)
   end).
Proof.
  intros clean w i l name ord find Hc Hr Ho Hch. pose proof (reachable_inv clean Hc w Hr) as I. simpl.
  destruct (get_package_spec clean Hc ord find w name I Ho (S i) i l) as (w' & r & E & H); [lia|done|]. simpl in E. rewrite E. simpl.
  exists r. split; [done|]. destruct H as [(k & m & p & ? & ? & ? & ?)|(Hno & root & Hlast & Hf)]; [left; eauto 10|right]. split; [done|].
  unfold from_path in Hf. destruct (find name) as [[d local]|]; [|naive_solver]. destruct Hf as (I' & X & Hf). split_and!.
  - intros m p ->. destruct Hf as (? & ? & ? & ?). eauto.
  - intros ->. destruct Hf as [(s & Hs & Hnd)|(m & Hcl & Hd & Hnp)].
    + right. split.
      * intros m Hm. apply Hnd. right. left. unfold read_from in Hm. destruct (w_heap w !! m) as [x|] eqn:Ex; [|done]. injection Hm as <-. exists m. by apply (i_heap _ _ I).
      * intros n ps Hf. exists root. destruct (ms_modules s !! n) as [m|] eqn:En.
        -- exists m. split; [done|by exists s].
        -- exfalso. apply Hnd. right. right. eauto.
    + left. exists m. split; [|done]. destruct Hd as (s & Hs & Hd). pose proof (si_dirs _ _ _ (i_sets _ _ I' root s Hs) _ _ Hd) as Hm.
      destruct (i_cache _ _ I' _ _ Hm) as (x & Hx & Hxd & _). unfold read_from. rewrite Hx. simpl. by rewrite Hxd.
  - intros ->. by destruct Hf.
Qed.
Print Assumptions C63_get_package.
(** Every set has exactly one chain of parents. *)
Theorem C63_parents_end : ∀ clean w i, clean_ok clean → reachable clean w → i < length (w_sets w) →
  ∃ l, chain w i l ∧ ∀ l', chain w i l' → l' = l.
Proof.
  intros clean w i Hc Hr Hi. pose proof (reachable_inv clean Hc w Hr) as I. destruct (chain_exists clean w I i Hi) as [l Hl].
  exists l. split; [done|]. intros l' Hl'. by eapply chain_fun.
Qed.
Print Assumptions C63_parents_end.
(** The order of map iteration does not matter if each set has the package in one module only ... *)
Theorem C63_get_package_deterministic : ∀ clean w i l name ord ord' find, clean_ok clean → reachable clean w → order_ok ord → order_ok ord' → chain w i l →
  (∀ k m m' p p', k ∈ l → offers w k name m p → offers w k name m' p' → m = m') →
  mstep clean w (GetPkg i name ord find) = mstep clean w (GetPkg i name ord' find).
Proof.
  intros clean w i l name ord ord' find Hc Hr Ho Ho' Hch Hu. pose proof (reachable_inv clean Hc w Hr) as I. simpl.
  enough (∀ fuel i l, chain w i l → (∀ k m m' p p', k ∈ l → offers w k name m p → offers w k name m' p' → m = m') →
    get_package clean fuel ord find w i name = get_package clean fuel ord' find w i name) as H.
  { specialize (H (S i) i l Hch Hu). simpl in H. by rewrite H. }
  clear i l Hch Hu. induction fuel as [|fuel IH]; intros i l Hch Hu; [done|]. simpl.
  assert (∃ s, w_sets w !! i = Some s) as [s Hs] by (inversion Hch; eauto). rewrite Hs.
  assert (i ∈ l) as Hil by (inversion Hch; subst; by left).
  pose proof (search_level clean w i s ord name I Ho Hs) as H1. pose proof (search_level clean w i s ord' name I Ho' Hs) as H2.
  destruct (search _ _ (ord i _)) as [[m p]|]; destruct (search _ _ (ord' i _)) as [[m' p']|].
  - pose proof (Hu i m m' p p' Hil H1 H2) as <-. destruct H1 as (n & _ & x & Hx & Hp), H2 as (n' & _ & x' & Hx' & Hp'). congruence.
  - by destruct (H2 m p).
  - by destruct (H1 m' p').
  - destruct (ms_parent s) as [j|] eqn:Hp; [|done]. inversion Hch as [? s' Hs' Hp'|? s' j' r' Hs' Hp' Hc']; subst; assert (s' = s) as -> by congruence; [congruence|].
    assert (j' = j) as -> by congruence. apply (IH j r'); [done|]. intros k m m' p p' Hk. apply Hu. by right.
Qed.
Print Assumptions C63_get_package_deterministic.
(** ... but a module within the directory of another is read as part of both: then the package may come from either. *)
Definition nested : fsys := λ d,
  if bool_decide (d = "/a") then Some ("a", {["a" := 1; "a/b" := 2]}) else if bool_decide (d = "/a/b") then Some ("a/b", {["a/b" := 2]}) else None.
Lemma nested_ok : fs_ok nested.
Proof.
  intros d n ps name H [p Hp]. unfold nested in H. repeat case_bool_decide; [| |done]; injection H as <- <-.
  - apply lookup_insert_Some in Hp as [[<- _]|[_ Hp]]; [by exists ""|]. apply lookup_singleton_Some in Hp as [<- _]. by exists "/b".
  - apply lookup_singleton_Some in Hp as [<- _]. by exists "".
Qed.
Theorem C63_get_package_deterministic_refuted : ¬ (∀ clean w i name ord ord' find, clean_ok clean → reachable clean w → order_ok ord → order_ok ord' →
  mstep clean w (GetPkg i name ord find) = mstep clean w (GetPkg i name ord' find)).
Proof.
  intros H. set (w := mrun id (world0 nested) [NewSet None; AddMods 0 ["/a"; "/a/b"]]).
  specialize (H id w 0 "a/b" (λ _, id) (λ _, reverse) (λ _, None)).
  assert (mstep id w (GetPkg 0 "a/b" (λ _, id) (λ _, None)) = mstep id w (GetPkg 0 "a/b" (λ _, reverse) (λ _, None))) as E.
  { apply H; [done| |intros ? l; done|intros ? l; by rewrite reverse_Permutation].
    exists nested, [NewSet None; AddMods 0 ["/a"; "/a/b"]]. split; [apply nested_ok|]. split; [by repeat constructor|done]. }
  apply (f_equal snd) in E. by vm_compute in E.
Qed.
Print Assumptions C63_get_package_deterministic_refuted.

(** C63. Add gives the module of the directory, marked as local or not as requested, for every set that has it ... *)
Theorem C63_add_marks_module : ∀ clean w i d local m, clean_ok clean → reachable clean w → i < length (w_sets w) →
  (mstep clean w (AddInfo i d local)).2 = RInfo (RMod m) →
  let w' := (mstep clean w (AddInfo i d local)).1 in
  under_dir w' i d m ∧ read_from w' m d ∧ is_local w' m local.
Proof.
  intros clean w i d local m Hc Hr Hi. pose proof (reachable_inv clean Hc w Hr) as I. destruct (lookup_lt_is_Some_2 _ _ Hi) as [s Hs].
  simpl. unfold add. destruct (add_module_spec clean Hc w i d s I Hs) as (w' & r & -> & I' & X & _ & H). destruct r; simpl; intros [= <-].
  destruct H as (Hcl & Hca & s' & Hs' & Hd). destruct (i_cache _ _ I' _ _ Hca) as (x & Hx & Hxd & _).
  unfold under_dir, read_from, is_local. simpl. rewrite list_lookup_alter, Hx. simpl. split_and!; [by exists s'|by rewrite Hxd|done].
Qed.
Print Assumptions C63_add_marks_module.
(** ... it succeeds exactly if AddModules would, and never panics for a path in its shortest form ... *)
Theorem C63_add_succeeds_iff : ∀ clean w i d local, clean_ok clean → reachable clean w → i < length (w_sets w) → clean d = d →
  (∃ m, (mstep clean w (AddInfo i d local)).2 = RInfo (RMod m) ∧ (mstep clean w (AddMods i [d])).2 = ROk true) ∨
  ((mstep clean w (AddInfo i d local)).2 = RInfo RErr ∧ (mstep clean w (AddMods i [d])).2 = ROk false).
Proof.
  intros clean w i d local Hc Hr Hi Hcl. pose proof (reachable_inv clean Hc w Hr) as I. destruct (lookup_lt_is_Some_2 _ _ Hi) as [s Hs].
  simpl. unfold add. destruct (add_module_spec clean Hc w i d s I Hs) as (w' & r & E & I' & X & _ & H). rewrite E.
  destruct (add_modules_spec clean Hc w i [d] s I Hs) as (w1 & b & E1 & _ & _ & _ & _ & _ & _ & Hok & _).
  unfold add_module in E. rewrite E1 in E. rewrite E1. destruct b.
  - injection E as <- <-. left. destruct (w_sets w1 !! i) as [s1|]; [|by destruct H]. destruct (ms_dirs s1 !! d) as [m|]; [|by destruct H]. by exists m.
  - injection E as <- <-. by right.
Qed.
Print Assumptions C63_add_succeeds_iff.
(** ... but for another spelling of a directory it does: the module is looked up under the path as given. *)
Theorem C63_add_never_panics_refuted : ¬ (∀ clean w i d local, clean_ok clean → reachable clean w → i < length (w_sets w) →
  (mstep clean w (AddInfo i d local)).2 ≠ RInfo RPanic).
Proof.
  intros H. set (c := λ d, if bool_decide (d = "/x/") then "/x" else d).
  apply (H c (mrun c (world0 twice) [NewSet None]) 0 "/x/" true); [| |by vm_compute; lia|by vm_compute].
  - intros d. unfold c. destruct (decide (d = "/x/")) as [->|E]; [done|]. by rewrite !(bool_decide_eq_false_2 (d = _)).
  - exists twice, [NewSet None]. split; [apply twice_ok|]. split; [by repeat constructor|done].
Qed.
Print Assumptions C63_add_never_panics_refuted.
(** Adding a module to one set changes whether another set takes it for local. *)
Theorem C63_sets_are_independent_refuted : ¬ (∀ clean w i j d local b m, clean_ok clean → reachable clean w → i ≠ j →
  under_dir w j d m → is_local w m b → is_local (mstep clean w (AddInfo i d local)).1 m b).
Proof.
  intros H. set (w := mrun id (world0 twice) [NewSet None; NewSet None; AddMods 0 ["/x"]]).
  assert (is_local (mstep id w (AddInfo 1 "/x" false)).1 0 true) as E; [|by vm_compute in E].
  apply (H id w 1 0 "/x" false true 0); [done| |done| |by vm_compute].
  - exists twice, [NewSet None; NewSet None; AddMods 0 ["/x"]]. split; [apply twice_ok|]. split; [by repeat constructor|done].
  - eexists. split; by vm_compute.
Qed.
Print Assumptions C63_sets_are_independent_refuted.
(** A set does not follow its directories: code that is generated into a directory after it was parsed is not seen, not
    even by a new set. *)
Theorem C63_sets_are_current_refuted : ¬ (∀ clean w i d, clean_ok clean → reachable clean w → i < length (w_sets w) →
  (mstep clean w (AddMods i [d])).2 = ROk true →
  let w' := (mstep clean w (AddMods i [d])).1 in
  ∀ m n ps name p, under_dir w' i (clean d) m → w_fs w' (clean d) = Some (n, ps) → ps !! name = Some p → has_pkg w' m name p).
Proof.
  intros H. set (fs := λ d : string, if bool_decide (d = "/x") then Some ("lib", ∅ : gmap string nat) else None).
  assert (fs_ok fs) as Hfs. { intros d n ps name E [p Hp]. unfold fs in E. case_bool_decide; [|done]. injection E as <- <-. by rewrite lookup_empty in Hp. }
  set (w := mrun id (world0 fs) [NewSet None; AddMods 0 ["/x"]; Files twice; NewSet (Some 0)]).
  destruct (H id w 1 "/x" ltac:(done)) with (m := 0) (n := "lib") (ps := {["lib" := 1]} : gmap string nat) (name := "lib") (p := 1) as (x & Hx & Hp).
  - exists fs, [NewSet None; AddMods 0 ["/x"]; Files twice; NewSet (Some 0)]. split; [done|]. split; [|done]. repeat constructor. apply twice_ok.
  - vm_compute. lia.
  - by vm_compute.
  - eexists. split; by vm_compute.
  - done.
  - by vm_compute.
  - vm_compute in Hx. injection Hx as <-. by vm_compute in Hp.
Qed.
Print Assumptions C63_sets_are_current_refuted.

(** C63. A new set is empty, and what it does not have is looked up in its parent and the parent's parents. *)
Theorem C63_new_set : ∀ clean w p l, chain w p l →
  let w' := (mstep clean w (NewSet (Some p))).1 in
  ∃ i, (mstep clean w (NewSet (Some p))).2 = RSet i ∧ chain w' i (i :: l) ∧ (∀ d m, ¬ under_dir w' i d m) ∧ (∀ n m, ¬ under_name w' i n m) ∧
  ∀ j, j ≠ i → w_sets w' !! j = w_sets w !! j.
Proof.
  intros clean w p l Hl. simpl. exists (length (w_sets w)). split; [done|].
  assert (∀ i l, chain w i l → chain (new_set w (if bool_decide (p < length (w_sets w)) then Some p else None)) i l) as Hm.
  { induction 1 as [i s Hs Hp|i s j l' Hs Hp Hc IH]; [eapply chain_root|eapply chain_up]; eauto; simpl; by apply lookup_app_l_Some. }
  assert (p < length (w_sets w)) as Hp. { inversion Hl; by eapply lookup_lt_Some. }
  assert (w_sets (new_set w (if bool_decide (p < length (w_sets w)) then Some p else None)) !! length (w_sets w) = Some (MSet ∅ ∅ (Some p))) as He.
  { simpl. rewrite lookup_app_r, Nat.sub_diag by done. rewrite bool_decide_eq_true_2 by done. done. }
  split; [|split; [|split]].
  - eapply chain_up; [exact He|done|by apply Hm].
  - intros d m (s & Hs & Hd). rewrite He in Hs. injection Hs as <-. simpl in Hd. by rewrite lookup_empty in Hd.
  - intros d m (s & Hs & Hd). rewrite He in Hs. injection Hs as <-. simpl in Hd. by rewrite lookup_empty in Hd.
  - intros j Hj. simpl. destruct (decide (j < length (w_sets w))); [by rewrite lookup_app_l|].
    rewrite lookup_ge_None_2 by (rewrite app_length; simpl; lia). rewrite lookup_ge_None_2 by lia. done.
Qed.
Print Assumptions C63_new_set.

(** ** Non-vacuity: two sets, a parent and a child, over two modules *)
Definition two : fsys := λ d,
  if bool_decide (d = "/a") then Some ("a", {["a" := 1; "a/x" := 2]}) else if bool_decide (d = "/b") then Some ("b", {["b" := 3]}) else None.
Definition demo_ops : list mop := [NewSet None; AddMods 0 ["/a"]; NewSet (Some 0); AddMods 1 ["/a"]].
Definition demo := mrun id (world0 two) demo_ops.
Example C63_nonvacuous : clean_ok id ∧ reachable id demo ∧ chain demo 1 [1; 0] ∧ under_dir demo 0 "/a" 0 ∧ under_dir demo 1 "/a" 0 ∧
  called demo 0 "a" ∧ has_pkg demo 0 "a/x" 2 ∧ nearest demo [1; 0] "a/x" 1 ∧
  (mstep id demo (GetPkg 1 "a/x" (λ _, id) (λ _, None))).2 = RPkg (PPkg 0 2) ∧
  (mstep id demo (GetPkg 1 "b" (λ _, id) (λ _, Some ("/b", false)))).2 = RPkg (PPkg 1 3) ∧
  (mstep id demo (AddMods 1 ["/b"; "/c"])).2 = ROk false ∧ (mstep id demo (AddMods 1 ["/b"; "/a"])).2 = ROk true ∧ names_unique demo.
Proof.
  assert (fs_ok two) as Hfs.
  { intros d n ps name H [p Hp]. unfold two in H. repeat case_bool_decide; [| |done]; injection H as <- <-.
    - apply lookup_insert_Some in Hp as [[<- _]|[_ Hp]]; [by exists ""|]. apply lookup_singleton_Some in Hp as [<- _]. by exists "/x".
    - apply lookup_singleton_Some in Hp as [<- _]. by exists "". }
  split_and!.
  - done.
  - exists two, demo_ops. split; [done|]. split; [by repeat constructor|done].
  - eapply chain_up; [by vm_compute|done|]. eapply chain_root; [by vm_compute|done].
  - eexists. split; by vm_compute.
  - eexists. split; by vm_compute.
  - by vm_compute.
  - eexists. split; by vm_compute.
  - exists [], [0]. split; [done|]. split; [|set_solver]. exists 0, 2, "a". split; (eexists; split; by vm_compute).
  - by vm_compute.
  - by vm_compute.
  - by vm_compute.
  - by vm_compute.
  - intros [|[|m]] [|[|m']] n; unfold called; vm_compute; congruence.
Qed.
