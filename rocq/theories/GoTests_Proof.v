From Verif Require Import GoTests_Model GoTests_Spec GoSrc_Proof Registry_Proof.
From stdpp Require Import list.
Set Default Proof Using "Type".

(** ** Suffixes *)
Lemma string_app_assoc (a b c : string) : (a +:+ (b +:+ c) = (a +:+ b) +:+ c)%string.
Proof. induction a as [|x a IH]; [done|]. exact (f_equal (String x) IH). Qed.
Lemma string_app_nil (a : string) : (a +:+ "" = a)%string.
Proof. induction a as [|x a IH]; [done|]. exact (f_equal (String x) IH). Qed.
Lemma rev_string_acc s : ∀ acc, rev_string s acc = (rev_string s "" +:+ acc)%string.
Proof.
  induction s as [|c s IH]; intros acc; [done|]. cbn [rev_string]. rewrite (IH (String c acc)), (IH (String c "")).
  by rewrite <- string_app_assoc.
Qed.
Lemma rev_string_app a b : rev_string (a +:+ b) "" = (rev_string b "" +:+ rev_string a "")%string.
Proof.
  induction a as [|c a IH]; [by rewrite string_app_nil|]. cbn [rev_string].
  change (rev_string (String c a +:+ b) "") with (rev_string (a +:+ b) (String c "")).
  rewrite (rev_string_acc (a +:+ b)), (rev_string_acc a), IH. by rewrite string_app_assoc.
Qed.
Lemma rev_string_rev s : rev_string (rev_string s "") "" = s.
Proof.
  induction s as [|c s IH]; [done|]. cbn [rev_string]. rewrite (rev_string_acc s), rev_string_app, IH. done.
Qed.
Lemma prefix_app_iff p s : String.prefix p s = true ↔ ∃ r, s = (p +:+ r)%string.
Proof.
  revert s. induction p as [|c p IH]; intros s; [split; [by exists s|by destruct s]|].
  destruct s as [|d s]; cbn [String.prefix]; [split; [done|intros [r H]; discriminate H]|].
  destruct (Ascii.ascii_dec c d) as [->|Hne].
  - rewrite IH. split; intros [r H]; exists r; [by rewrite H|]. by injection H.
  - split; [done|]. intros [r H]. injection H as Hd _. by destruct Hne.
Qed.
Lemma has_suffix_spec suf s : has_suffix suf s = true ↔ ends_in suf s.
Proof.
  unfold has_suffix, ends_in. rewrite prefix_app_iff. split; intros [r H].
  - exists (rev_string r ""). rewrite <- (rev_string_rev s), H, rev_string_app, rev_string_rev. done.
  - exists (rev_string r ""). by rewrite H, rev_string_app.
Qed.
Lemma has_suffix_false suf s : has_suffix suf s = false ↔ ¬ ends_in suf s.
Proof. rewrite <- has_suffix_spec. by destruct (has_suffix suf s). Qed.
Lemma before_clients_spec f : before_clients f = true ↔ runs_first f.
Proof.
  unfold before_clients, runs_first, is_test_file. rewrite andb_true_iff, negb_true_iff, has_suffix_false, bool_decide_eq_true. done.
Qed.
Lemma before_clients_false f : before_clients f = false ↔ ¬ runs_first f.
Proof. rewrite <- before_clients_spec. by destruct (before_clients f). Qed.

(** ** Loading *)
Lemma load_funcs_vars_flat fs : ∀ l vars,
  (∀ f r n s, f ∈ fs → DFunc (Some r) n s ∈ f_decls (tf_src f) → is_Some (ld_structs l !! receiver_name r)) →
  load_funcs_vars fs l vars = (foldl func_step l (flat (map tf_src fs)), foldl (λ m f, load_vars f m) vars fs).
Proof.
  induction fs as [|f fs IH]; intros l vars H; [done|]. simpl. rewrite load_funcs_flat.
  - rewrite IH; [unfold flat; simpl; by rewrite foldl_app|]. intros g r n s Hg Hd. rewrite fold_structs.
    eapply H; [by right|done].
  - intros r n s Hd. eapply H; [by left|done].
Qed.

Lemma load_vars_Some f m x y : load_vars f m !! x = Some y →
  m !! x = Some y ∨ ∃ v, v ∈ tf_vars f ∧ head (vs_names v) = Some x ∧ y = (f, vs_values v).
Proof.
  unfold load_vars. induction (tf_vars f) as [|v vs IH] using rev_ind; simpl; [by left|].
  rewrite foldl_app. simpl. destruct (vs_names v) as [|z zs] eqn:Ez.
  - intros [?|(v' & ? & ?)]%IH; [by left|]. right. exists v'. split; [set_solver|done].
  - intros [[-> <-]|[_ [?|(v' & ? & ?)]%IH]]%lookup_insert_Some.
    + right. exists v. rewrite Ez. split; [set_solver|done].
    + by left.
    + right. exists v'. split; [set_solver|done].
Qed.
Lemma load_vars_is f m x :
  is_Some (m !! x) ∨ (∃ v, v ∈ tf_vars f ∧ head (vs_names v) = Some x) → is_Some (load_vars f m !! x).
Proof.
  unfold load_vars. induction (tf_vars f) as [|v vs IH] using rev_ind; simpl.
  - intros [?|(v & Hv & _)]; [done|]. by apply elem_of_nil in Hv.
  - rewrite foldl_app. simpl. intros H.
    assert (is_Some (m !! x) ∨ (∃ v, v ∈ vs ∧ head (vs_names v) = Some x) ∨ head (vs_names v) = Some x) as H'.
    { destruct H as [?|(v' & [Hv|Hv]%elem_of_app & Hx)]; [by left|right; left; eauto|].
      apply elem_of_list_singleton in Hv as ->. auto. }
    destruct (vs_names v) as [|z zs].
    + apply IH. destruct H' as [?|[?|?]]; [auto..|done].
    + destruct (decide (z = x)) as [->|?]; [rewrite lookup_insert; eauto|rewrite lookup_insert_ne by done].
      apply IH. destruct H' as [?|[?|?]]; [auto..|simpl in *; congruence].
Qed.
Lemma all_vars_Some fs : ∀ m x y, foldl (λ m f, load_vars f m) m fs !! x = Some y →
  m !! x = Some y ∨ ∃ f v, f ∈ fs ∧ v ∈ tf_vars f ∧ head (vs_names v) = Some x ∧ y = (f, vs_values v).
Proof.
  induction fs as [|f fs IH]; intros m x y H; simpl in *; [by left|].
  apply IH in H as [[?|(v & ? & ? & ?)]%load_vars_Some|(g & v & ? & ?)]; [by left|right..].
  - exists f, v. split; [by left|done].
  - exists g, v. split; [by right|done].
Qed.
Lemma all_vars_is fs : ∀ m x, is_Some (m !! x) ∨ (∃ f v, f ∈ fs ∧ v ∈ tf_vars f ∧ head (vs_names v) = Some x) →
  is_Some (foldl (λ m f, load_vars f m) m fs !! x).
Proof.
  induction fs as [|f fs IH]; intros m x H; simpl.
  - destruct H as [?|(f & v & Hf & _)]; [done|]. by apply elem_of_nil in Hf.
  - apply IH. destruct H as [?|(g & v & [->|Hg]%elem_of_cons & Hv & Hx)].
    + left. apply load_vars_is. by left.
    + left. apply load_vars_is. right. eauto.
    + right. eauto.
Qed.

Section package.
  Context (W : world) (p : tpackage) (Hp : test_package W p).

  Lemma load_test_eq : load_test_package p =
    (load_package (map tf_src (tp_order1 p)) (map tf_src (tp_order2 p)), foldl (λ m f, load_vars f m) ∅ (tp_order2 p)).
  Proof using Hp.
    destruct Hp as (Hacc & H1 & H2 & _). unfold load_test_package.
    assert (map tf_src (tp_order1 p) ≡ₚ sources p) as H1' by (by apply Permutation_map).
    assert (map tf_src (tp_order2 p) ≡ₚ sources p) as H2' by (by apply Permutation_map).
    pose proof (load_package_eq W (tp_name p) (sources p) _ _ Hacc H1' H2') as Hl. simpl in Hl. rewrite Hl.
    destruct Hacc as (_ & _ & (He & _ & _ & Hr) & _ & _).
    rewrite over_types_flat; [|intros f n tps ms e [Hf Hd]; eapply He; split; [by rewrite <- H1'|done]].
    rewrite load_funcs_vars_flat; [done|]. intros f r n s Hf Hd.
    assert (tf_src f ∈ sources p) as Hf'. { unfold sources. apply elem_of_list_fmap. exists f. by rewrite <- H2. }
    destruct (Hr _ r n s Hf' Hd) as (st & Hst & (g & tps & es & Hg & Hgd)).
    assert (receiver_name r = st) as -> by (by destruct Hst as [->| ->]).
    apply structs_fold_Some. exists g, tps, es. apply elem_of_flat. by rewrite H1'.
  Qed.

  Lemma vars_lookup x y : x ≠ "_" →
    (load_test_package p).2 !! x = Some y ↔
    ∃ f v, f ∈ tp_files p ∧ v ∈ tf_vars f ∧ head (vs_names v) = Some x ∧ y = (f, vs_values v).
  Proof using Hp.
    intros Hx. rewrite load_test_eq. simpl. destruct Hp as (_ & _ & H2 & _ & Hu & _). split.
    - intros [H|(f & v & Hf & ?)]%all_vars_Some; [by rewrite lookup_empty in H|]. rewrite H2 in Hf. eauto.
    - intros (f & v & Hf & Hv & Hh & ->).
      destruct (all_vars_is (tp_order2 p) ∅ x) as [y Hy]. { right. exists f, v. by rewrite H2. }
      rewrite Hy. apply all_vars_Some in Hy as [Hy|(f' & v' & Hf' & Hv' & Hh' & ->)]; [by rewrite lookup_empty in Hy|].
      rewrite H2 in Hf'.
      destruct (Hu f v f' v' x) as [<- <-]; try done.
      + destruct (vs_names v); simplify_eq/=. by left.
      + destruct (vs_names v'); simplify_eq/=. by left.
  Qed.

  Lemma resolve_in f T t : f ∈ tp_files p → denotes W (tp_name p) (sources p) (tf_src f) [] T t →
    resolve (tp_name p) (ld_types (load_test_package p).1) (tf_src f) [] T = t.
  Proof using Hp.
    intros Hf Hd. rewrite load_test_eq. simpl. destruct Hp as (Hacc & H1 & H2 & _).
    assert (tf_src f ∈ sources p) as Hf' by (apply elem_of_list_fmap; eauto).
    eapply resolve_denotes; [|apply Hacc|exact Hf'| | |exact Hd].
    - intros n. apply (load_types_iff W (tp_name p)); [done|by apply Permutation_map..].
    - destruct Hacc as (_ & _ & _ & _ & Hi). eapply Forall_forall in Hi; [exact Hi|done].
    - intros x Hx. by apply elem_of_nil in Hx.
  Qed.

  Lemma registry_call_Some vs T : registry_call vs = Some T ↔ vs = [registry_value T].
  Proof using Type.
    unfold registry_call, registry_value. split.
    - destruct vs as [|[x s T'|] [|]]; try done. destruct (bool_decide (x = _)) eqn:E1, (bool_decide (s = _)) eqn:E2; simpl; try done.
      apply bool_decide_eq_true in E1, E2. intros [= ->]. by subst.
    - intros ->. done.
  Qed.

  Lemma found_package_iff L m r :
    r ∈ found_package L m p ↔
    fr_mod r = m ∧ fr_pkg r = p ∧
    (∃ f T, f ∈ tp_files p ∧ VarSpec [fr_var r] [registry_value T] ∈ tf_vars f ∧
       denotes W (tp_name p) (sources p) (tf_src f) [] T (fr_type r)) ∧
    fr_iface r = match fr_type r with TUser pk n => L pk n | _ => None end.
  Proof using Hp.
    pose proof Hp as (_ & _ & _ & Hsuf%has_suffix_false & Hu & Hreg). unfold found_package. rewrite Hsuf.
    pose proof (λ x y Hx, vars_lookup x y Hx) as Hvl. pose proof resolve_in as Hres.
    destruct (load_test_package p) as [l vars] eqn:El. simpl in Hvl, Hres. rewrite elem_of_list_In, in_flat_map. split.
    - intros ([x [f vs]] & Hin%elem_of_list_In%elem_of_map_to_list & Hr). unfold found_var in Hr. simpl in Hr.
      destruct (registry_call vs) as [T|] eqn:Ec; [|done]. apply registry_call_Some in Ec as ->.
      destruct Hr as [<-|[]]. simpl. split; [done|]. split; [done|].
      destruct (decide (x = "_")) as [->|Hx].
      + assert (foldl (λ m f, load_vars f m) ∅ (tp_order2 p) = vars) as Hv by (by rewrite load_test_eq in El; simplify_eq).
        rewrite <- Hv in Hin. apply all_vars_Some in Hin as [H|(f' & v & Hf & Hv' & Hh & [= -> Hvs])]; [by rewrite lookup_empty in H|].
        destruct Hp as (_ & _ & H2 & _). rewrite H2 in Hf.
        destruct (Hreg f' v T Hf Hv' (eq_sym Hvs)) as (x & t & Hn & Hx & _). rewrite Hn in Hh. simplify_eq/=.
      + apply Hvl in Hin as (f' & v & Hf & Hv & Hh & [= -> Hvs]); [|done].
        destruct (Hreg f' v T Hf Hv (eq_sym Hvs)) as (z & t & Hn & Hz & Hd). rewrite Hn in Hh. simplify_eq/=.
        pose proof (Hres _ _ _ Hf Hd) as ->. split; [|done]. exists f', T. split; [done|]. split; [|done].
        destruct v as [ns vs]. simpl in *. by subst.
    - destruct r as [m' p' x t i]. simpl. intros (-> & -> & (f & T & Hf & Hv & Hd) & ->).
      exists (x, (f, [registry_value T])). split.
      + apply elem_of_list_In, elem_of_map_to_list. apply Hvl.
        * destruct (Hreg f _ T Hf Hv eq_refl) as (z & ? & [= ->] & ? & _). done.
        * exists f. eexists. split; [done|]. split; [exact Hv|done].
      + unfold found_var. simpl. rewrite (Hres _ _ _ Hf Hd). by left.
  Qed.
End package.

Lemma found_iff W L ms r : test_modules W ms →
  r ∈ found L ms ↔ declares_registry W ms (fr_mod r) (fr_pkg r) (fr_var r) (fr_type r) ∧
    fr_iface r = match fr_type r with TUser pk n => L pk n | _ => None end.
Proof.
  intros (Hp & _). unfold found. rewrite elem_of_list_In, in_flat_map. unfold declares_registry. split.
  - intros (m & Hm%elem_of_list_In & (p & Hpin%elem_of_list_In & Hr%elem_of_list_In)%in_flat_map).
    apply (found_package_iff W) in Hr as (<- & <- & ? & ?); [eauto|by eapply Hp].
  - intros ((Hm & Hpin & H) & Hi). exists (fr_mod r). split; [by apply elem_of_list_In|].
    apply in_flat_map. exists (fr_pkg r). split; [by apply elem_of_list_In|]. apply elem_of_list_In.
    apply (found_package_iff W); [by eapply Hp|done].
Qed.

(** ** Matching *)
Lemma ty_equals_spec t : ∀ o, resolved t → ty_equals t o = Some (bool_decide (t = o)).
Proof.
  induction t; intros o Hr; simpl in *; try done; destruct o; simpl; try (symmetry; f_equal; by apply bool_decide_eq_false_2);
    try (f_equal; by apply bool_decide_eq_true_2); try (f_equal; apply bool_decide_ext; naive_solver).
  all: try (rewrite IHt by done; f_equal; apply bool_decide_ext; naive_solver).
  - f_equal. rewrite <- bool_decide_and. apply bool_decide_ext. naive_solver.
  - destruct Hr as [? ?]. rewrite IHt1, IHt2 by done. unfold andp. case_bool_decide as H1.
    + f_equal. apply bool_decide_ext. naive_solver.
    + f_equal. symmetry. apply bool_decide_eq_false_2. naive_solver.
  - destruct Hr as [? ?]. rewrite IHt1, IHt2 by done. unfold andp. case_bool_decide as H1.
    + f_equal. apply bool_decide_ext. naive_solver.
    + f_equal. symmetry. apply bool_decide_eq_false_2. naive_solver.
Qed.
Lemma same_types_spec a : ∀ b, (∀ x t, (x, t) ∈ a → resolved t) → same_types a b = Some (bool_decide (a.*2 = b.*2)).
Proof.
  induction a as [|[x t] a IH]; intros [|[y u] b] H; simpl; try done.
  rewrite ty_equals_spec by (eapply H; by left). rewrite IH by (intros; eapply H; by right). unfold andp.
  case_bool_decide as H1.
  - f_equal. apply bool_decide_ext. subst. split; [intros E; f_equal; exact E|intros E; injection E; done].
  - f_equal. symmetry. apply bool_decide_eq_false_2. by intros [= ? ?].
Qed.
Lemma same_types_checked_spec a b : (∀ x t, (x, t) ∈ a → resolved t) →
  same_types_checked a b = Some (bool_decide (a.*2 = b.*2)).
Proof.
  intros H. unfold same_types_checked. case_bool_decide as Hl; [by apply same_types_spec|].
  f_equal. symmetry. apply bool_decide_eq_false_2. intros E. apply Hl. apply (f_equal length) in E. by rewrite !fmap_length in E.
Qed.
Global Instance same_signature_dec f g : Decision (same_signature f g).
Proof. unfold same_signature. apply _. Defined.
Lemma func_equals_spec f g : (∀ x t, (x, t) ∈ fn_args f ++ fn_rets f → resolved t) →
  func_equals f g = Some (bool_decide (same_signature f g)).
Proof.
  intros H. unfold func_equals.
  rewrite !same_types_checked_spec by (intros x t Hx; apply (H x t); set_solver). unfold andp, same_signature.
  repeat case_bool_decide; f_equal; naive_solver.
Qed.
Lemma contains_all_spec i j : (∀ m f, (m, f) ∈ j → ∀ x t, (x, t) ∈ fn_args f ++ fn_rets f → resolved t) →
  ∃ b, contains_all i j = Some b ∧
    (b = true ↔ ∀ m f, (m, f) ∈ j → ∃ g, i !! m = Some g ∧ same_signature f g).
Proof.
  induction j as [|[n f] j IH]; intros H; simpl.
  - exists true. split; [done|]. split; [|done]. intros _ m f Hf. by apply elem_of_nil in Hf.
  - destruct (i !! n) as [g|] eqn:Eg.
    + rewrite func_equals_spec by (eapply H; by left). destruct IH as (b & -> & Hb); [intros; eapply H; [by right|done]|].
      unfold andp. case_bool_decide as Hs.
      * exists b. split; [done|]. rewrite Hb. split.
        -- intros Ha m h [[= -> ->]|Hin]%elem_of_cons; [eauto|by apply Ha].
        -- intros Ha m h Hin. apply Ha. by right.
      * exists false. split; [done|]. split; [done|]. intros Ha. destruct (Ha n f) as (g' & ? & ?); [by left|]. by simplify_eq.
    + exists false. split; [done|]. split; [done|]. intros Ha. destruct (Ha n f) as (g' & ? & ?); [by left|]. by simplify_eq.
Qed.
Lemma reg_matches_spec L i r : resolved_ifaces L →
  fr_iface r = match fr_type r with TUser pk n => L pk n | _ => None end →
  ∃ b, reg_matches i r = Some b ∧ (b = true ↔ suits L i (fr_type r)).
Proof.
  intros HL Hi. unfold reg_matches. rewrite ty_equals_spec by done. case_bool_decide as He.
  - exists true. split; [done|]. split; [|done]. intros _. by left.
  - unfold suits. destruct (fr_iface r) as [j|] eqn:Ej.
    + destruct (fr_type r) as [|pk n| | | | | | | | | | | | | |] eqn:Et; try done.
      destruct (contains_all_spec (si_methods i) (fi_methods j)) as (b & -> & Hb); [intros; by eapply HL|].
      exists b. split; [done|]. rewrite Hb. split.
      * intros H. right. eauto 10.
      * intros [?|(pk' & n' & j' & [= <- <-] & Hj & H)]; [congruence|]. by rewrite <- Hi in Hj; simplify_eq.
    + exists false. split; [done|]. split; [done|]. intros [?|(pk' & n' & j' & Ht & Hj & H)]; [congruence|].
      rewrite Ht in Hi. congruence.
Qed.
Lemma matching_spec L i rs : resolved_ifaces L →
  (∀ r, r ∈ rs → fr_iface r = match fr_type r with TUser pk n => L pk n | _ => None end) →
  ∃ ms, matching i rs = Some ms ∧ ∀ r, r ∈ ms ↔ r ∈ rs ∧ suits L i (fr_type r).
Proof.
  intros HL. induction rs as [|r rs IH]; intros Hi; simpl.
  - exists []. split; [done|]. set_solver.
  - destruct (reg_matches_spec L i r HL) as (b & -> & Hb); [apply Hi; by left|].
    destruct IH as (ms & -> & Hms); [intros; apply Hi; by right|]. eexists. split; [done|]. intros r'.
    destruct b.
    + rewrite !elem_of_cons, Hms. destruct Hb as [Hb _]. specialize (Hb eq_refl). naive_solver.
    + rewrite elem_of_cons, Hms. split; [naive_solver|]. intros [[->|Hin] Hs]; [|done]. by apply Hb in Hs.
Qed.

(** ** Generating *)
Definition mkreg (s : tservice) (r : freg) : registration :=
  Registration (fr_var r) (ts_name s) (ts_node s) (fr_type r) (match fr_iface r with Some j => fi_is_struct j | None => false end).
Lemma file_of_insert b pk l pk' : file_of (<[pk := l]> b) pk' = if decide (pk = pk') then l else file_of b pk'.
Proof. unfold file_of. destruct (decide (pk = pk')) as [->|?]; [by rewrite lookup_insert|by rewrite lookup_insert_ne]. Qed.

Lemma add_local_dirs w d q w' : add_local_module w d q = Some w' →
  ws_dirs w' !! q = Some d ∧ ∀ q' d', ws_dirs w !! q' = Some d' → ws_dirs w' !! q' = Some d'.
Proof.
  unfold add_local_module. destruct (ws_dirs w !! q) as [d0|] eqn:E.
  - case_bool_decide as H; [|done]. intros [= <-]. subst. done.
  - assert (∀ q' d', ws_dirs w !! q' = Some d' → <[q:=d]> (ws_dirs w) !! q' = Some d') as Hk.
    { intros q' d' H. rewrite lookup_insert_ne; [done|congruence]. }
    destruct (ws_modules w !! d) as [q1|] eqn:E1.
    + case_bool_decide as H; [|done]. intros [= <-]. simpl. by rewrite lookup_insert.
    + intros [= <-]. simpl. by rewrite lookup_insert.
Qed.
Definition tidy (w : workspace) (m : tmodule) : Prop :=
  (ws_dirs w !! tm_path m = None ∨ ws_dirs w !! tm_path m = Some (tm_dir m)) ∧
  (ws_modules w !! tm_dir m = None ∨ ws_modules w !! tm_dir m = Some (tm_path m)).
Lemma no_clash_tidy w ms : no_clash w ms → ∀ m, m ∈ ms → tidy w m.
Proof. intros [H _] m Hm. by apply H. Qed.
Lemma add_local_ok w ms m : no_clash w ms → m ∈ ms → ∃ w', add_local_module w (tm_dir m) (tm_path m) = Some w' ∧ no_clash w' ms.
Proof.
  intros [H1 H2] Hm. destruct (H1 m Hm) as [Hd Hmd]. unfold add_local_module.
  destruct Hd as [-> | ->].
  - destruct Hmd as [Hn|Hn]; rewrite Hn.
    + eexists. split; [done|]. split; [|done]. intros m' Hm'. simpl. destruct (H1 m' Hm') as [Hd' Hmd'].
      destruct (decide (tm_path m = tm_path m')) as [E|E].
      * rewrite <- E, lookup_insert. pose proof (proj2 (H2 m m' Hm Hm') E) as E'. rewrite <- E', lookup_insert. auto.
      * assert (tm_dir m ≠ tm_dir m') as E' by (intros E'; apply E; by apply (H2 m m' Hm Hm')).
        by rewrite !lookup_insert_ne.
    + rewrite bool_decide_true by done. eexists. split; [done|]. split; [|done]. intros m' Hm'. simpl.
      destruct (H1 m' Hm') as [Hd' Hmd']. split; [|done].
      destruct (decide (tm_path m = tm_path m')) as [E|E]; [|by rewrite lookup_insert_ne].
      rewrite <- E, lookup_insert. right. f_equal. by apply (H2 m m' Hm Hm').
  - rewrite bool_decide_true by done. eexists. split; [done|]. by split.
Qed.

(** What one registration does to the state *)
Definition extends (st st' : gstate) (new : string → registration → Prop) : Prop :=
  (∀ pk reg, reg ∈ file_of st'.2 pk ↔ reg ∈ file_of st.2 pk ∨ new pk reg) ∧
  (∀ q d, ws_dirs st.1 !! q = Some d → ws_dirs st'.1 !! q = Some d) ∧
  ((∀ pk, st.2 !! pk ≠ Some []) → ∀ pk, st'.2 !! pk ≠ Some []).
Lemma add_client_extends s r st st' : add_client s r st = Done st' →
  extends st st' (λ pk reg, pk = tp_name (fr_pkg r) ∧ reg = mkreg s r).
Proof.
  destruct st as [w b]. unfold add_client. fold (mkreg s r). destruct (b !! tp_name (fr_pkg r)) as [l|] eqn:Eb.
  - intros [= <-]. split_and!; simpl; [|done|].
    + intros pk reg. rewrite file_of_insert. destruct (decide _) as [<-|Hne].
      * assert (file_of b (tp_name (fr_pkg r)) = l) as -> by (unfold file_of; by rewrite Eb). rewrite elem_of_app, elem_of_list_singleton. naive_solver.
      * naive_solver.
    + intros H pk. destruct (decide (tp_name (fr_pkg r) = pk)) as [<-|?]; [rewrite lookup_insert|by rewrite lookup_insert_ne].
      intros [= E]. by destruct l.
  - destruct (add_local_module w _ _) as [w'|] eqn:Ew; [|done]. intros [= <-]. split_and!; simpl.
    + intros pk reg. rewrite file_of_insert. destruct (decide _) as [<-|Hne].
      * assert (file_of b (tp_name (fr_pkg r)) = []) as -> by (unfold file_of; by rewrite Eb). rewrite elem_of_list_singleton. set_solver.
      * naive_solver.
    + by apply add_local_dirs in Ew as [_ ?].
    + intros H pk. destruct (decide (tp_name (fr_pkg r) = pk)) as [<-|?]; [rewrite lookup_insert|by rewrite lookup_insert_ne]. done.
Qed.
Lemma extends_refl st : extends st st (λ _ _, False).
Proof. split_and!; [naive_solver|done|done]. Qed.
Lemma extends_trans st1 st2 st3 n1 n2 : extends st1 st2 n1 → extends st2 st3 n2 → extends st1 st3 (λ pk r, n1 pk r ∨ n2 pk r).
Proof.
  intros (A1 & A2 & A3) (B1 & B2 & B3). split_and!; [|auto|auto]. intros pk reg. rewrite B1, A1. tauto.
Qed.
Lemma extends_iff st st' n n' : (∀ pk r, n pk r ↔ n' pk r) → extends st st' n → extends st st' n'.
Proof. intros H (A1 & A2 & A3). split_and!; [|done|done]. intros pk reg. by rewrite A1, H. Qed.

Lemma add_clients_extends s rs : ∀ st st', add_clients s rs st = Done st' →
  extends st st' (λ pk reg, ∃ r, r ∈ rs ∧ pk = tp_name (fr_pkg r) ∧ reg = mkreg s r).
Proof.
  induction rs as [|r rs IH]; intros st st'; simpl.
  - intros [= <-]. eapply extends_iff; [|apply extends_refl]. intros pk reg. split; [done|]. intros (r & Hr & _). by apply elem_of_nil in Hr.
  - destruct (add_client s r st) as [st1| |] eqn:E; [|done..]. intros H.
    eapply extends_iff; [|eapply extends_trans; [by eapply add_client_extends|by eapply IH]].
    intros pk reg. simpl. split.
    + intros [[-> ->]|(r' & ? & ?)]; [exists r; split; [by left|done]|exists r'; split; [by right|done]].
    + intros (r' & [->|?]%elem_of_cons & ?); [by left|right; eauto].
Qed.

Definition planned (L : lookup_iface) (rs : list freg) (ss : list tservice) (pk : string) (reg : registration) : Prop :=
  ∃ r s, r ∈ rs ∧ suiting L ss (fr_type r) s ∧ pk = tp_name (fr_pkg r) ∧ reg = mkreg s r.
Lemma gen_extends L rs : resolved_ifaces L →
  (∀ r, r ∈ rs → fr_iface r = match fr_type r with TUser pk n => L pk n | _ => None end) →
  ∀ ss st st', gen_services rs ss st = Done st' → extends st st' (planned L rs ss).
Proof.
  intros HL Hi. induction ss as [|s ss IH]; intros st st'; simpl.
  - intros [= <-]. eapply extends_iff; [|apply extends_refl]. intros pk reg. split; [done|].
    intros (r & s & _ & [Hs _] & _). by apply elem_of_nil in Hs.
  - destruct (ts_iface s) as [i|] eqn:Ei; [|done]. destruct (matching_spec L i rs HL Hi) as (ms & -> & Hms).
    destruct (add_clients s ms st) as [st1| |] eqn:E; [|done..]. intros H.
    eapply extends_iff; [|eapply extends_trans; [by eapply add_clients_extends|by eapply IH]].
    intros pk reg. simpl. unfold planned, suiting. split.
    + intros [(r & [Hr ?]%Hms & -> & ->)|(r & s' & Hr & [Hs' ?] & -> & ->)].
      * exists r, s. split; [done|]. split; [|done]. split; [by left|eauto].
      * exists r, s'. split; [done|]. split; [|done]. split; [by right|eauto].
    + intros (r & s' & Hr & [[->|Hs']%elem_of_cons (i' & Hi' & Hsuit)] & -> & ->).
      * left. exists r. rewrite Hms. by simplify_eq.
      * right. exists r, s'. eauto 10.
Qed.

(** the modules of the packages in hand are copied *)
Definition copied (rs : list freg) (st : gstate) : Prop :=
  ∀ r, r ∈ rs → is_Some (st.2 !! tp_name (fr_pkg r)) → ws_dirs st.1 !! tm_path (fr_mod r) = Some (tm_dir (fr_mod r)).
Lemma add_client_copied rs s r st st' :
  (∀ r r', r ∈ rs → r' ∈ rs → tp_name (fr_pkg r) = tp_name (fr_pkg r') → fr_mod r = fr_mod r') → r ∈ rs →
  copied rs st → add_client s r st = Done st' → copied rs st'.
Proof.
  intros Hu Hr Hc E r' Hr'. pose proof (add_client_extends _ _ _ _ E) as (_ & Hk & _). destruct st as [w b].
  unfold add_client in E. destruct (b !! tp_name (fr_pkg r)) as [l|] eqn:Eb.
  - simplify_eq. simpl in *. intros Hs. apply (Hc r' Hr'). simpl.
    destruct (decide (tp_name (fr_pkg r) = tp_name (fr_pkg r'))) as [<-|?]; [eauto|by rewrite lookup_insert_ne in Hs].
  - destruct (add_local_module w _ _) as [w'|] eqn:Ew; [|done]. simplify_eq. simpl in *. intros Hs.
    destruct (decide (tp_name (fr_pkg r) = tp_name (fr_pkg r'))) as [E|?].
    + rewrite <- (Hu r r') by done. by apply add_local_dirs in Ew as [? _].
    + rewrite lookup_insert_ne in Hs by done. apply Hk. by apply (Hc r' Hr').
Qed.
Lemma add_clients_copied rs s : (∀ r r', r ∈ rs → r' ∈ rs → tp_name (fr_pkg r) = tp_name (fr_pkg r') → fr_mod r = fr_mod r') →
  ∀ ms st st', (∀ r, r ∈ ms → r ∈ rs) → copied rs st → add_clients s ms st = Done st' → copied rs st'.
Proof.
  intros Hu. induction ms as [|r ms IH]; intros st st' Hin Hc; simpl; [by intros [= <-]|].
  destruct (add_client s r st) as [st1| |] eqn:E; [|done..]. apply IH; [set_solver|].
  eapply add_client_copied; [done| |done|done]. set_solver.
Qed.
Lemma matching_sub i rs : ∀ ms, matching i rs = Some ms → ∀ r, r ∈ ms → r ∈ rs.
Proof.
  induction rs as [|r rs IH]; intros ms; simpl; [intros [= <-]; set_solver|].
  destruct (reg_matches i r) as [b|]; [|done]. destruct (matching i rs) as [l|]; [|done]. intros [= <-] r' Hr'.
  destruct b; [apply elem_of_cons in Hr' as [->|Hr']|]; [by left|right; by eapply IH..].
Qed.
Lemma gen_copied rs : (∀ r r', r ∈ rs → r' ∈ rs → tp_name (fr_pkg r) = tp_name (fr_pkg r') → fr_mod r = fr_mod r') →
  ∀ ss st st', copied rs st → gen_services rs ss st = Done st' → copied rs st'.
Proof.
  intros Hu. induction ss as [|s ss IH]; intros st st' Hc; simpl; [by intros [= <-]|].
  destruct (ts_iface s) as [i|]; [|done]. destruct (matching i rs) as [ms|] eqn:Em; [|done].
  destruct (add_clients s ms st) as [st1| |] eqn:E; [|done..]. apply IH.
  eapply add_clients_copied; [done| |done|done]. by eapply matching_sub.
Qed.

(** ** Success *)
Lemma add_clients_ok ms s : ∀ rs st, (∀ r, r ∈ rs → fr_mod r ∈ ms) → no_clash st.1 ms →
  ∃ st', add_clients s rs st = Done st' ∧ no_clash st'.1 ms.
Proof.
  induction rs as [|r rs IH]; intros st Hm Hc; simpl; [eauto|].
  assert (∃ st', add_client s r st = Done st' ∧ no_clash st'.1 ms) as (st1 & -> & Hc1).
  { destruct st as [w b]. unfold add_client. destruct (b !! _) as [l|]; [eauto|].
    destruct (add_local_ok w ms (fr_mod r) Hc) as (w' & -> & ?); [apply Hm; by left|]. eauto. }
  apply IH; [|done]. intros; apply Hm; by right.
Qed.
Lemma gen_ok L rs ms : resolved_ifaces L →
  (∀ r, r ∈ rs → fr_iface r = match fr_type r with TUser pk n => L pk n | _ => None end) →
  (∀ r, r ∈ rs → fr_mod r ∈ ms) →
  ∀ ss st, no_clash st.1 ms → (∀ s, s ∈ ss → is_Some (ts_iface s)) → ∃ st', gen_services rs ss st = Done st'.
Proof.
  intros HL Hi Hm. induction ss as [|s ss IH]; intros st Hc Hs; simpl; [eauto|].
  destruct (Hs s) as [i ->]; [by left|]. destruct (matching_spec L i rs HL Hi) as (l & -> & Hl).
  destruct (add_clients_ok ms s l st) as (st1 & -> & Hc1); [intros r [? _]%Hl; by apply Hm|done|].
  apply IH; [done|]. intros; apply Hs; by right.
Qed.
Lemma gen_no_panic L rs : resolved_ifaces L →
  (∀ r, r ∈ rs → fr_iface r = match fr_type r with TUser pk n => L pk n | _ => None end) →
  ∀ ss st, gen_services rs ss st ≠ Panic.
Proof.
  intros HL Hi. induction ss as [|s ss IH]; intros st; simpl; [done|].
  destruct (ts_iface s) as [i|]; [|done]. destruct (matching_spec L i rs HL Hi) as (l & -> & Hl). clear Hl.
  destruct (add_clients s l st) as [st1| |] eqn:E; [apply IH|done|]. exfalso. clear IH. revert st E.
  induction l as [|r l IH]; intros st; simpl; [done|]. destruct (add_client s r st) as [st1| |] eqn:E1; [apply IH|done|].
  destruct st as [w b]. unfold add_client in E1. destruct (b !! _); [done|]. by destruct (add_local_module _ _ _).
Qed.

(** ** Running *)
Lemma to_rops_app a b : to_rops (a ++ b) = to_rops a ++ imap (λ i o, match o with VRegister n _ => ORegister n (length a + i) | VDefault n => OSetDefault n end) b.
Proof. unfold to_rops. by rewrite imap_app. Qed.
Lemma to_rops_cons o ops : to_rops (o :: ops) =
  (match o with VRegister n _ => ORegister n 0 | VDefault n => OSetDefault n end) ::
  imap (λ i o, match o with VRegister n _ => ORegister n (Datatypes.S i) | VDefault n => OSetDefault n end) ops.
Proof. done. Qed.
Lemma latest_exists n ops : (∃ s, VRegister n s ∈ ops) →
  ∃ g s, latest n (to_rops ops) g ∧ ops !! g = Some (VRegister n s).
Proof.
  induction ops as [|o ops IH] using rev_ind; intros (s & Hs); [by apply elem_of_nil in Hs|].
  rewrite to_rops_app. simpl. rewrite Nat.add_0_r.
  assert ((∃ s', o = VRegister n s') ∨ ¬ (∃ s', o = VRegister n s')) as [(s' & ->)|Hn].
  { destruct o as [m s0|m]; [destruct (decide (m = n)) as [->|?]; [left; eauto|right; naive_solver]|right; naive_solver]. }
  - exists (length ops), s'. split; [constructor|]. by rewrite lookup_app_r, Nat.sub_diag by lia.
  - assert (∃ s, VRegister n s ∈ ops) as H.
    { apply elem_of_app in Hs as [?|Hs]; [eauto|]. apply elem_of_list_singleton in Hs as <-. destruct Hn. eauto. }
    destruct (IH H) as (g & s' & Hl & Hg). exists g, s'. split; [|by apply lookup_app_l_Some].
    apply latest_later; [done|]. intros g'. destruct o as [m s0|m]; [|done]. intros [= -> _]. destruct Hn. eauto.
Qed.
Lemma used_first n s0 rest s : (∀ m, VDefault m ∉ rest) → (∀ s', VRegister n s' ∈ VRegister n s0 :: rest → s' = s) →
  used (VRegister n s0 :: rest) = Some s.
Proof.
  intros Hd Hu. destruct (latest_exists n (VRegister n s0 :: rest)) as (g & s' & Hl & Hg); [exists s0; by left|].
  unfold used. rewrite to_rops_cons in *.
  pose proof (first_registered_wins (λ f _, RClient f) []
    (imap (λ i o, match o with VRegister n _ => ORegister n (Datatypes.S i) | VDefault n => OSetDefault n end) rest) n 0 g) as H.
  destruct H as [_ H]; [intros op Hop; by apply elem_of_nil in Hop| |done|].
  { intros op (i & Hop)%elem_of_list_lookup. rewrite list_lookup_imap in Hop.
    destruct (rest !! i) as [o|] eqn:E; [|done]. simpl in Hop. simplify_eq.
    apply elem_of_list_lookup_2 in E. destruct o as [m s1|m]; [split; [intros (? & ?)|unfold is_get]; done|].
    by destruct (Hd m). }
  simpl app in H. change (?a :: ?b ++ ?c) with ((a :: b) ++ c) in H. rewrite H, Hg. f_equal. apply Hu.
  by eapply elem_of_list_lookup_2.
Qed.

Lemma elem_client_ops x rs o : o ∈ client_ops x rs ↔ ∃ r, r ∈ rs ∧ rg_var r = x ∧ o = VRegister (rg_client r) (SClient (rg_node r)).
Proof.
  unfold client_ops. rewrite elem_of_list_omap. split.
  - intros (r & Hr & H). case_bool_decide; [|done]. simplify_eq. eauto.
  - intros (r & Hr & <- & ->). exists r. by rewrite bool_decide_true.
Qed.
Lemma elem_local_ops x is o : o ∈ local_ops x is ↔
  (∃ n k, IRegister x n k ∈ is ∧ o = VRegister n (SLocal k)) ∨ (∃ n, ISetDefault x n ∈ is ∧ o = VDefault n).
Proof.
  unfold local_ops. rewrite elem_of_list_omap. split.
  - intros ([y n k|y n] & Hr & H); case_bool_decide; simplify_eq; eauto 10.
  - intros [(n & k & H & ->)|(n & H & ->)]; eexists; (split; [exact H|]); simpl; by rewrite bool_decide_true.
Qed.

Lemma used_reached x p rs ss (ok : tservice → Prop) :
  defers p x ss → NoDup (ts_name <$> ss) → (∀ s, ok s → s ∈ ss) →
  (∀ r, r ∈ rs → rg_var r = x → ∃ s, ok s ∧ rg_client r = ts_name s ∧ rg_node r = ts_node s) →
  (∃ r, r ∈ rs ∧ rg_var r = x) →
  ∃ s, ok s ∧ used (package_ops x p rs) = Some (SClient (ts_node s)).
Proof.
  intros Hdef Hnd Hok Hrs (r0 & Hr0 & Hx0). unfold package_ops.
  assert (flat_map (λ f, local_ops x (tf_init f)) (filter before_clients (tp_files p)) = []) as ->.
  { destruct (flat_map _ _) as [|o l] eqn:E; [done|exfalso].
    assert (o ∈ flat_map (λ f, local_ops x (tf_init f)) (filter before_clients (tp_files p))) as H by (rewrite E; by left).
    apply elem_of_list_In, in_flat_map in H as (f & Hf%elem_of_list_In & Ho%elem_of_list_In).
    apply elem_of_list_filter in Hf as [Hb Hf]. apply Is_true_true in Hb.
    apply elem_local_ops in Ho as [(n & k & Hi & _)|(n & Hi & _)].
    - destruct (Hdef f _ Hf Hi) as [Hr%before_clients_false _]; [left; eauto|congruence].
    - destruct (Hdef f _ Hf Hi) as [Hr%before_clients_false _]; [right; eauto|congruence]. }
  simpl. set (loc := flat_map _ _).
  assert (∀ o, o ∈ loc → ∃ n k, o = VRegister n (SLocal k) ∧ n ∉ ts_name <$> ss) as Hloc.
  { intros o (f & Hf%elem_of_list_In & Ho%elem_of_list_In)%elem_of_list_In%in_flat_map.
    apply elem_of_list_filter in Hf as [_ Hf]. apply elem_local_ops in Ho as [(n & k & Hi & ->)|(n & Hi & _)].
    - destruct (Hdef f _ Hf Hi) as (_ & n' & k' & [= <- <-] & ?); [left; eauto|]. eauto.
    - destruct (Hdef f _ Hf Hi) as (_ & n' & k' & ? & _); [right; eauto|done]. }
  assert (VRegister (rg_client r0) (SClient (rg_node r0)) ∈ client_ops x rs) as Hin by (apply elem_client_ops; eauto).
  destruct (client_ops x rs) as [|o cs] eqn:Ec; [by apply elem_of_nil in Hin|]. clear Hin Hr0 Hx0.
  assert (o ∈ client_ops x rs) as Ho by (rewrite Ec; by left). apply elem_client_ops in Ho as (r & Hr & Hx & ->).
  destruct (Hrs r Hr Hx) as (s & Hs & Hcl & Hnode). exists s. split; [done|]. simpl. rewrite Hcl, Hnode. apply used_first.
  - intros m [Hm|Hm]%elem_of_app.
    + assert (VDefault m ∈ client_ops x rs) as H by (rewrite Ec; by right). by apply elem_client_ops in H as (? & _ & _ & ?).
    + by apply Hloc in Hm as (? & ? & ? & _).
  - intros s' H. change (VRegister (ts_name s) (SClient (ts_node s)) :: cs ++ loc) with
      ((VRegister (ts_name s) (SClient (ts_node s)) :: cs) ++ loc) in H. rewrite <- Hcl, <- Hnode, <- Ec in H.
    apply elem_of_app in H as [H|H].
    + apply elem_client_ops in H as (r' & Hr' & Hx' & [= Hc' ->]). destruct (Hrs r' Hr' Hx') as (s2 & Hs2 & Hcl2 & ->).
      assert (s2 = s) as ->; [|done]. assert (ts_name s2 = ts_name s) as He by congruence.
      pose proof (Hok _ Hs) as [i Hi]%elem_of_list_lookup. pose proof (Hok _ Hs2) as [j Hj]%elem_of_list_lookup.
      assert (i = j) as ->; [|congruence].
      apply (NoDup_lookup (ts_name <$> ss) i j (ts_name s)); [done| |]; rewrite list_lookup_fmap; [rewrite Hi|rewrite Hj]; simpl; congruence.
    + apply Hloc in H as (n & k & [= <- _] & Hn). exfalso. apply Hn. apply elem_of_list_fmap. exists s. split; [done|]. by apply Hok.
Qed.

(** ** Unaffected registries *)
Lemma ascii_compare_trans a b c : Ascii.compare a b = Lt → Ascii.compare b c = Lt → Ascii.compare a c = Lt.
Proof. unfold Ascii.compare. rewrite !N.compare_lt_iff. lia. Qed.
Lemma string_lt_trans a : ∀ b c, String.compare a b = Lt → String.compare b c = Lt → String.compare a c = Lt.
Proof.
  induction a as [|x a IH]; intros [|y b] [|z c]; simpl; try done.
  destruct (Ascii.compare x y) eqn:E1; [|intros _|done].
  - apply Ascii.compare_eq_iff in E1 as ->. destruct (Ascii.compare y z) eqn:E2; [apply IH|done|done].
  - destruct (Ascii.compare y z) eqn:E2; [|intros _|done].
    + apply Ascii.compare_eq_iff in E2 as ->. by rewrite E1.
    + by rewrite (ascii_compare_trans _ _ _ E1 E2).
Qed.
Lemma filter_all {A} (P : A → Prop) `{∀ x, Decision (P x)} (l : list A) : (∀ x, x ∈ l → P x) → filter P l = l.
Proof.
  induction l as [|a l IH]; intros H1; [done|]. rewrite filter_cons_True by (apply H1; by left). f_equal. apply IH. set_solver.
Qed.
Lemma filter_none {A} (P : A → Prop) `{∀ x, Decision (P x)} (l : list A) : (∀ x, x ∈ l → ¬ P x) → filter P l = [].
Proof.
  induction l as [|a l IH]; intros H1; [done|]. rewrite filter_cons_False by (apply H1; by left). apply IH. set_solver.
Qed.
Lemma order_split fs : go_order fs → (∀ f, f ∈ fs → f_name (tf_src f) ≠ clients_file) →
  filter before_clients fs ++ filter (λ f, negb (before_clients f) && bool_decide (f_name (tf_src f) ≠ clients_file)) fs = fs.
Proof.
  intros (l1 & l2 & -> & Hn & Ht & Hs & _) Hc.
  assert (∀ f, f ∈ l2 → before_clients f = false) as H2.
  { intros f Hf. unfold before_clients. specialize (Ht f Hf). apply has_suffix_spec in Ht. by rewrite Ht. }
  rewrite !filter_app. rewrite (filter_none before_clients l2), app_nil_r by (intros f Hf; rewrite (H2 f Hf); by intros []).
  rewrite (filter_all _ l2).
  2:{ intros f Hf. rewrite (H2 f Hf). simpl. apply bool_decide_spec, Hc. set_solver. }
  rewrite app_assoc. f_equal. clear H2 Ht.
  induction l1 as [|f l1 IH]; [done|]. apply StronglySorted_inv in Hs as [Hs Hlt].
  destruct (before_clients f) eqn:Eb.
  - rewrite filter_cons_True by (by rewrite Eb). rewrite filter_cons_False by (rewrite Eb; by intros []). simpl. f_equal.
    apply IH; [set_solver|done|set_solver].
  - rewrite filter_none, filter_all; [done| |].
    + intros g Hg. apply Is_true_true, andb_true_iff. split; [|apply bool_decide_eq_true, Hc; set_solver].
      apply negb_true_iff. apply elem_of_cons in Hg as [->|Hg]; [done|]. destruct (before_clients g) eqn:Eg; [|done].
      exfalso. unfold before_clients in Eb, Eg. apply andb_true_iff in Eg as [_ Eg]. apply bool_decide_eq_true in Eg.
      assert (has_suffix "_test.go" (f_name (tf_src f)) = false) as Hsuf.
      { apply has_suffix_false, Hn. by left. }
      rewrite Hsuf in Eb. simpl in Eb. apply bool_decide_eq_false in Eb. apply Eb.
      rewrite List.Forall_forall in Hlt. apply elem_of_list_In in Hg. eapply string_lt_trans; [by apply Hlt|done].
    + intros g Hg. apply elem_of_cons in Hg as [->|Hg]; [rewrite Eb; by intros []|]. destruct (before_clients g) eqn:Eg; [|by intros []].
      exfalso. unfold before_clients in Eb, Eg. apply andb_true_iff in Eg as [_ Eg]. apply bool_decide_eq_true in Eg.
      assert (has_suffix "_test.go" (f_name (tf_src f)) = false) as Hsuf.
      { apply has_suffix_false, Hn. by left. }
      rewrite Hsuf in Eb. simpl in Eb. apply bool_decide_eq_false in Eb. apply Eb.
      rewrite List.Forall_forall in Hlt. apply elem_of_list_In in Hg. eapply string_lt_trans; [by apply Hlt|done].
Qed.
Lemma package_ops_unchanged x p rs : go_order (tp_files p) → (∀ f, f ∈ tp_files p → f_name (tf_src f) ≠ clients_file) →
  (∀ r, r ∈ rs → rg_var r ≠ x) → package_ops x p rs = original_ops x p.
Proof.
  intros Ho Hc Hr. unfold package_ops, original_ops.
  assert (client_ops x rs = []) as ->.
  { destruct (client_ops x rs) as [|o l] eqn:E; [done|]. assert (o ∈ client_ops x rs) as H by (rewrite E; by left).
    apply elem_client_ops in H as (r & ? & ? & _). by destruct (Hr r). }
  simpl. rewrite <- flat_map_app. by rewrite order_split.
Qed.

(** ** The theorems *)
Section setting.
  Context (W : world) (L : lookup_iface) (ms : list tmodule) (rs : list freg) (ss : list tservice).
  Context (Hset : setting W L ms rs ss).

  Lemma rs_iff r : r ∈ rs ↔ declares_registry W ms (fr_mod r) (fr_pkg r) (fr_var r) (fr_type r) ∧
    fr_iface r = match fr_type r with TUser pk n => L pk n | _ => None end.
  Proof using Hset. destruct Hset as (Hm & _ & Hrs & _). rewrite Hrs. by apply found_iff. Qed.
  Lemma rs_iface r : r ∈ rs → fr_iface r = match fr_type r with TUser pk n => L pk n | _ => None end.
  Proof using Hset. by intros [_ ?]%rs_iff. Qed.

  Lemma registers_exactly w st : generate w rs ss = Done st → ∀ pk reg,
    reg ∈ file_of st.2 pk ↔
    ∃ m p s t, declares_registry W ms m p (rg_var reg) t ∧ tp_name p = pk ∧ suiting L ss t s ∧
      reg = Registration (rg_var reg) (ts_name s) (ts_node s) t
              (match t with TUser q n => match L q n with Some j => fi_is_struct j | None => false end | _ => false end).
  Proof using Hset.
    intros H pk reg. destruct Hset as (Hm & HL & Hrs & Hnd).
    pose proof (gen_extends L rs HL rs_iface ss (w, ∅) st H) as (Hex & _ & _). rewrite Hex. simpl.
    unfold file_of at 1. rewrite lookup_empty. split.
    - intros [Hn|(r & s & Hr & Hs & -> & ->)]; [by apply elem_of_nil in Hn|].
      apply rs_iff in Hr as [Hd Hi]. exists (fr_mod r), (fr_pkg r), s, (fr_type r). simpl. split_and!; try done.
      unfold mkreg. rewrite Hi. by destruct (fr_type r).
    - intros (m & p & s & t & Hd & <- & Hs & Hreg). right.
      exists (FReg m p (rg_var reg) t (match t with TUser q n => L q n | _ => None end)), s. simpl. split_and!; try done.
      + by apply rs_iff.
      + rewrite Hreg. simpl. unfold mkreg. simpl. f_equal. by destruct t.
  Qed.

  Lemma file_nonempty w st pk : generate w rs ss = Done st → is_Some (st.2 !! pk) ↔ file_of st.2 pk ≠ [].
  Proof using Hset.
    intros H. destruct Hset as (Hm & HL & Hrs & Hnd).
    pose proof (gen_extends L rs HL rs_iface ss (w, ∅) st H) as (_ & _ & Hne). simpl in Hne.
    unfold file_of. split.
    - intros [l Hl]. rewrite Hl. intros ->. eapply Hne; [|exact Hl]. intros pk'. by rewrite lookup_empty.
    - destruct (st.2 !! pk); [eauto|done].
  Qed.

  Lemma module_copied w st m p x t : generate w rs ss = Done st → declares_registry W ms m p x t →
    is_Some (st.2 !! tp_name p) → ws_dirs st.1 !! tm_path m = Some (tm_dir m).
  Proof using Hset.
    intros H Hd Hs.
    assert (copied rs st) as Hc.
    { destruct Hset as ((_ & Hu) & HL & Hrs & Hnd). eapply (gen_copied rs) with (ss := ss) (st := (w, ∅)); [|intros r Hr; simpl; rewrite lookup_empty; by intros [? ?]|exact H].
      intros r r' [(A & B & _) _]%rs_iff [(C & D & _) _]%rs_iff E. by destruct (Hu _ _ _ _ A B C D E). }
    apply (Hc (FReg m p x t (match t with TUser q n => L q n | _ => None end))); [by apply rs_iff|done].
  Qed.

  Lemma generates w : no_clash w ms → (∀ s, s ∈ ss → is_Some (ts_iface s)) → ∃ st, generate w rs ss = Done st.
  Proof using Hset.
    intros Hc Hs. destruct Hset as (Hm & HL & Hrs & Hnd). apply (gen_ok L rs ms); [done|apply rs_iface| |done|done].
    by intros r [(? & _) _]%rs_iff.
  Qed.
  Lemma no_panic w : generate w rs ss ≠ Panic.
  Proof using Hset. destruct Hset as (Hm & HL & Hrs & Hnd). apply (gen_no_panic L); [done|apply rs_iface]. Qed.

  Lemma tests_reach w st m p x t : generate w rs ss = Done st → declares_registry W ms m p x t → defers p x ss →
    (∃ s, suiting L ss t s) → ∃ s, suiting L ss t s ∧ tested st p x = Some (SClient (ts_node s)).
  Proof using Hset.
    intros H Hd Hdef (s0 & Hs0). pose proof (registers_exactly w st H (tp_name p)) as Hreg.
    pose proof Hset as ((Htp & Hu) & HL & Hrs & Hnd). unfold tested. apply (used_reached x p _ ss (suiting L ss t)); try done.
    - by intros s [? _].
    - intros r Hr Hx. apply Hreg in Hr as (m' & p' & s & t' & Hd' & Hn & Hs & ->). simpl in *. exists s. split; [|done].
      assert (t = t') as ->; [|done]. rewrite Hx in Hd'.
      destruct Hd as (Hm & Hp & f & T & Hf & Hv & Hden), Hd' as (Hm' & Hp' & f' & T' & Hf' & Hv' & Hden').
      destruct (Hu _ _ _ _ Hm Hp Hm' Hp' (eq_sym Hn)) as [-> ->].
      pose proof (Htp _ _ Hm Hp) as Hpk. pose proof Hpk as (_ & _ & _ & _ & Huv & Hrv).
      destruct (Hrv f _ T Hf Hv eq_refl) as (z & ? & [= <-] & Hz & _).
      destruct (Huv f _ f' _ x Hf Hv Hf' Hv') as [-> [= ->]]; [by left|by left|done|].
      pose proof (resolve_in W p' Hpk f' _ _ Hf' Hden) as H1. pose proof (resolve_in W p' Hpk f' _ _ Hf' Hden') as H2. congruence.
    - exists (Registration x (ts_name s0) (ts_node s0) t
        (match t with TUser q n => match L q n with Some j => fi_is_struct j | None => false end | _ => false end)).
      split; [|done]. apply Hreg. exists m, p, s0, t. done.
  Qed.

  Lemma others_unchanged w st m p x t : generate w rs ss = Done st → declares_registry W ms m p x t →
    go_order (tp_files p) → (∀ f, f ∈ tp_files p → f_name (tf_src f) ≠ clients_file) →
    (∀ s, ¬ suiting L ss t s) → tested st p x = tested_locally p x.
  Proof using Hset.
    intros H Hd Ho Hc Hno. unfold tested, tested_locally. f_equal. apply package_ops_unchanged; [done|done|].
    intros r Hr Hx. apply (registers_exactly w st H (tp_name p)) in Hr as (m' & p' & s & t' & Hd' & Hn & Hs & _). rewrite Hx in Hd'.
    destruct Hset as ((Htp & Hu) & HL & Hrs & Hnd).
    destruct Hd as (Hm & Hp & f & T & Hf & Hv & Hden), Hd' as (Hm' & Hp' & f' & T' & Hf' & Hv' & Hden').
    destruct (Hu _ _ _ _ Hm Hp Hm' Hp' (eq_sym Hn)) as [-> ->].
    pose proof (Htp _ _ Hm Hp) as Hpk. pose proof Hpk as (_ & _ & _ & _ & Huv & Hrv).
    destruct (Hrv f _ T Hf Hv eq_refl) as (z & ? & [= <-] & Hz & _).
    destruct (Huv f _ f' _ x Hf Hv Hf' Hv') as [-> [= ->]]; [by left|by left|done|].
    pose proof (resolve_in W p' Hpk f' _ _ Hf' Hden) as H1. pose proof (resolve_in W p' Hpk f' _ _ Hf' Hden') as H2.
    apply (Hno s). congruence.
  Qed.
End setting.

(** ** Embedded interfaces *)
Lemma load_members_embedded f ms e : ∀ acc, MEmbedded e ∈ ms → (load_members f ms acc).2 = false.
Proof.
  induction ms as [|[n s|e'] ms IH]; intros acc H; [by apply elem_of_nil in H| |done].
  cbn [load_members]. apply IH. by apply elem_of_cons in H as [[=]|H].
Qed.
Lemma load_types_embedded f n tps ms e ds : ∀ l, DType n tps (BInterface ms) ∈ ds → MEmbedded e ∈ ms → (load_types f ds l).2 = false.
Proof.
  induction ds as [|d ds IH]; intros l H He; [by apply elem_of_nil in H|].
  apply elem_of_cons in H as [<-|H].
  - cbn [load_types]. pose proof (load_members_embedded f ms e ∅ He) as Hm.
    destruct (load_members f ms ∅) as [m ok]. simpl in Hm. by rewrite Hm.
  - destruct d as [n' tps' [ms'|fs|]|r n' s| ]; cbn [load_types]; auto.
    destruct (load_members f ms' ∅) as [m []]; auto.
Qed.
Lemma load_test_hidden L m p f n tps ms e :
  f ∈ tp_order1 p → DType n tps (BInterface ms) ∈ f_decls (tf_src f) → MEmbedded e ∈ ms → found_package L m p = [].
Proof.
  intros Hf Hd He. unfold found_package, load_test_package.
  assert (∀ l, (over_files load_types (map tf_src (tp_order1 p)) l).2 = false) as H.
  { induction (tp_order1 p) as [|g fs IH]; [by apply elem_of_nil in Hf|]. intros l. cbn [map over_files].
    apply elem_of_cons in Hf as [<-|Hf].
    - pose proof (load_types_embedded (tf_src f) n tps ms e _ l Hd He) as Ht.
      destruct (load_types _ _ l) as [l' ok]. simpl in Ht. by rewrite Ht.
    - destruct (load_types _ _ l) as [l' []]; auto. }
  specialize (H empty_loaded). destruct (over_files _ _ _) as [l ok]. simpl in H. rewrite H.
  destruct (has_suffix _ _); [done|]. by rewrite map_to_list_empty.
Qed.
