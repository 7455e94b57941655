From Verif Require Import Wiring_Model Wiring_Spec.

Section proofs.
  Context {T B V : Type}.
  Notation op := (op T B V).
  Notation spec := (spec T B V).
  Implicit Types (s : spec) (h : list op).

  Lemma run_snoc h o : run (h ++ [o]) = step (run h) o.
  Proof. unfold run. rewrite fold_left_app. done. Qed.

  Lemma run_app h1 h2 : run (h1 ++ h2) = fold_left step h2 (run h1).
  Proof. unfold run. rewrite fold_left_app. done. Qed.

  Lemma last_about_snoc h o n :
    last_about (h ++ [o]) n = if bool_decide (op_name o = n) then Some o else last_about h n.
  Proof. unfold last_about. rewrite rev_app_distr. simpl. by destruct (bool_decide _). Qed.

  Lemma gdc_defs s n :
    sp_defs (get_def_create s n).2 !! n = Some (get_def_create s n).1.
  Proof.
    unfold get_def_create. destruct (sp_defs s !! n) eqn:E; simpl; [done|]. by rewrite lookup_insert.
  Qed.
  Lemma gdc_defs_ne s n m : n ≠ m → sp_defs (get_def_create s n).2 !! m = sp_defs s !! m.
  Proof.
    intros. unfold get_def_create. destruct (sp_defs s !! n) eqn:E; simpl; [done|].
    by rewrite lookup_insert_ne.
  Qed.
  Lemma gdc_aliases_ne s n m : n ≠ m → sp_aliases (get_def_create s n).2 !! m = sp_aliases s !! m.
  Proof.
    intros. unfold get_def_create. destruct (sp_defs s !! n) eqn:E; simpl; [done|].
    by rewrite lookup_delete_ne.
  Qed.

  (** What a call does to one entry. *)
  Lemma step_defs_ne s o m : op_name o ≠ m → sp_defs (step s o) !! m = sp_defs s !! m.
  Proof.
    destruct o as [n t b os c|a p|n k v|n k v]; simpl; intros Hne;
      (unfold define; unfold alias; unfold set_property; unfold add_property).
    - destruct (get_def_create s n) as [d s1] eqn:E. simpl. (rewrite lookup_insert_ne; try done).
      (rewrite <- (gdc_defs_ne s n m) by done; rewrite E; try done).
    - simpl. by rewrite lookup_delete_ne.
    - destruct (get_def_create s n) as [d s1] eqn:E. simpl. (rewrite lookup_insert_ne; try done).
      (rewrite <- (gdc_defs_ne s n m) by done; rewrite E; try done).
    - destruct (get_def_create s n) as [d s1] eqn:E. simpl. (rewrite lookup_insert_ne; try done).
      (rewrite <- (gdc_defs_ne s n m) by done; rewrite E; try done).
  Qed.

  Lemma step_aliases_ne s o m : op_name o ≠ m → sp_aliases (step s o) !! m = sp_aliases s !! m.
  Proof.
    destruct o as [n t b os c|a p|n k v|n k v]; simpl; intros Hne;
      (unfold define; unfold alias; unfold set_property; unfold add_property).
    - destruct (get_def_create s n) as [d s1] eqn:E. simpl.
      (rewrite <- (gdc_aliases_ne s n m) by done; rewrite E; try done).
    - simpl. by rewrite lookup_insert_ne.
    - destruct (get_def_create s n) as [d s1] eqn:E. simpl.
      (rewrite <- (gdc_aliases_ne s n m) by done; rewrite E; try done).
    - destruct (get_def_create s n) as [d s1] eqn:E. simpl.
      (rewrite <- (gdc_aliases_ne s n m) by done; rewrite E; try done).
  Qed.

  Definition excl s : Prop := ∀ n, sp_defs s !! n = None ∨ sp_aliases s !! n = None.

  Lemma gdc_excl s n : excl s → sp_aliases (get_def_create s n).2 !! n = None.
  Proof.
    intros Hex. unfold get_def_create. destruct (sp_defs s !! n) eqn:E; simpl.
    - destruct (Hex n); congruence.
    - by rewrite lookup_delete.
  Qed.

  Lemma step_excl s o : excl s → excl (step s o).
  Proof.
    intros Hex m. destruct (decide (op_name o = m)) as [<-|Hne].
    - destruct o as [n t b os c|a p|n k v|n k v]; simpl;
        (unfold define; unfold alias; unfold set_property; unfold add_property); simpl;
        try (left; by rewrite lookup_delete); right;
        pose proof (gdc_excl s n Hex) as H; destruct (get_def_create s n); exact H.
    - (rewrite step_defs_ne by done; rewrite step_aliases_ne; try done).
  Qed.

  Lemma run_excl h : excl (run h).
  Proof.
    induction h as [|o h IH] using rev_ind.
    - left. done.
    - rewrite run_snoc. by apply step_excl.
  Qed.

  (** Kind of a name = kind of the last call about it. *)
  Lemma run_kind h n :
    sp_aliases (run h) !! n =
      (match last_about h n with Some (OAlias _ p) => Some p | _ => None end) ∧
    (is_Some (sp_defs (run h) !! n) ↔
      ∃ o, last_about h n = Some o ∧ is_alias_op o = false).
  Proof.
    induction h as [|o h IH] using rev_ind.
    - split; [done|]. split; [intros [? H]; done | intros (?&?&?); done].
    - (rewrite run_snoc; rewrite last_about_snoc). destruct (bool_decide_reflect (op_name o = n)) as [Hn|Hne].
      + destruct o as [n' t b os c|a p|n' k v|n' k v]; simpl in Hn; subst; simpl;
          (unfold define; unfold alias; unfold set_property; unfold add_property); simpl.
        * pose proof (gdc_excl (run h) n (run_excl h)) as Ha.
          destruct (get_def_create (run h) n) as [d s1]. simpl in *. rewrite lookup_insert.
          split; [done|]. split; [intros _; eauto | intros _; eauto].
        * (rewrite lookup_insert; rewrite lookup_delete). split; [done|].
          split; [by intros [? ?] | intros (?&[= <-]&?); done].
        * pose proof (gdc_excl (run h) n (run_excl h)) as Ha.
          destruct (get_def_create (run h) n) as [d s1]. simpl in *. rewrite lookup_insert.
          split; [done|]. split; [intros _; eauto | intros _; eauto].
        * pose proof (gdc_excl (run h) n (run_excl h)) as Ha.
          destruct (get_def_create (run h) n) as [d s1]. simpl in *. rewrite lookup_insert.
          split; [done|]. split; [intros _; eauto | intros _; eauto].
      + (rewrite step_aliases_ne by done; rewrite step_defs_ne; try done).
  Qed.

  Lemma elem_defs s n : n ∈ defs s ↔ is_Some (sp_defs s !! n).
  Proof.
    unfold defs. rewrite elem_of_list_fmap. split.
    - intros ([k d] & -> & H). apply elem_of_map_to_list in H. eauto.
    - intros [d H]. exists (n, d). split; [done|]. by apply elem_of_map_to_list.
  Qed.

  Lemma defs_nodup s : NoDup (defs s).
  Proof. apply NoDup_fst_map_to_list. Qed.

  Theorem kind_last_call h n :
    (get_alias (run h) n = match last_about h n with Some (OAlias _ p) => Some p | _ => None end)
    ∧ (n ∈ defs (run h) ↔ ∃ o, last_about h n = Some o ∧ is_alias_op o = false)
    ∧ ¬ (n ∈ defs (run h) ∧ is_Some (get_alias (run h) n)).
  Proof.
    pose proof (run_kind h n) as [Ha Hd]. rewrite elem_defs.
    split; [exact Ha|]. split; [exact Hd|]. intros [H1 [x H2]].
    unfold get_alias in H2. destruct (run_excl h n) as [E|E]; [destruct H1; congruence|congruence].
  Qed.

  (** ** Definitions *)
  Lemma frame_fold h s m :
    (∀ o, o ∈ h → op_name o ≠ m) → sp_defs (fold_left step h s) !! m = sp_defs s !! m ∧
       sp_aliases (fold_left step h s) !! m = sp_aliases s !! m.
  Proof.
    revert s. induction h as [|o h IH]; intros s H; simpl; [done|].
    destruct (IH (step s o)) as [-> ->]; [intros; apply H; by right|].
    split; [apply step_defs_ne | apply step_aliases_ne]; apply H; by left.
  Qed.

  Lemma step_define_at s n t b os c :
    ∃ d, sp_defs (step s (ODefine n t b os c)) !! n = Some d ∧ wd_type d = t ∧ wd_build d = b.
  Proof.
    simpl. unfold define. destruct (get_def_create s n) as [d s1]. simpl.
    rewrite lookup_insert. eauto.
  Qed.

  Lemma step_keep_tb s o n d :
    sp_defs s !! n = Some d → ¬ (op_name o = n ∧ (is_define_op o = true ∨ is_alias_op o = true)) →
    ∃ d', sp_defs (step s o) !! n = Some d' ∧ wd_type d' = wd_type d ∧ wd_build d' = wd_build d
          ∧ wd_opts d' = wd_opts d.
  Proof.
    intros Hd Hno. destruct (decide (op_name o = n)) as [Hn|Hne].
    - destruct o as [n' t b os c|a p|n' k v|n' k v]; simpl in *; subst.
      + destruct Hno; eauto.
      + destruct Hno; eauto.
      + (unfold set_property; unfold get_def_create; rewrite Hd). simpl. rewrite lookup_insert. eauto.
      + (unfold add_property; unfold get_def_create; rewrite Hd). simpl. rewrite lookup_insert. eauto.
    - (rewrite step_defs_ne; try done). eauto.
  Qed.

  Lemma fold_keep_tb h s n d :
    sp_defs s !! n = Some d →
    (∀ o, o ∈ h → ¬ (op_name o = n ∧ (is_define_op o = true ∨ is_alias_op o = true))) →
    ∃ d', sp_defs (fold_left step h s) !! n = Some d' ∧ wd_type d' = wd_type d ∧ wd_build d' = wd_build d.
  Proof.
    revert s d. induction h as [|o h IH]; intros s d Hd Hno; simpl; [eauto|].
    destruct (step_keep_tb s o n d Hd) as (d1&H1&Ht&Hb&_); [apply Hno; by left|].
    destruct (IH (step s o) d1 H1) as (d2&H2&Ht2&Hb2); [intros; apply Hno; by right|].
    exists d2. split_and!; congruence.
  Qed.

  Lemma get_def_direct s n d f : sp_defs s !! n = Some d → excl s → get_def (S f) s n = Some (Some d).
  Proof.
    intros Hd Hex. unfold get_def. simpl. destruct (Hex n) as [E|E]; [congruence|]. rewrite E. by rewrite Hd.
  Qed.

  Theorem last_define_wins h1 n t b os c h2 f :
    (∀ x, x ∈ h2 → ¬ (op_name x = n ∧ (is_define_op x = true ∨ is_alias_op x = true))) →
    ∃ d, get_def (S f) (run (h1 ++ ODefine n t b os c :: h2)) n = Some (Some d) ∧ wd_type d = t ∧ wd_build d = b.
  Proof.
    intros Hno. rewrite run_app. simpl.
    destruct (step_define_at (run h1) n t b os c) as (d&Hd&Ht&Hb).
    destruct (fold_keep_tb h2 _ n d Hd Hno) as (d'&Hd'&Ht'&Hb').
    exists d'. split; [|split; congruence].
    apply get_def_direct; [exact Hd'|].
    pose proof (run_excl (h1 ++ ODefine n t b os c :: h2)) as Hex. rewrite run_app in Hex. exact Hex.
  Qed.

  (** Conversely a def with a build function got it from a Define. *)
  Lemma def_has_source h n d b :
    sp_defs (run h) !! n = Some d → wd_build d = Some b →
    ∃ h1 t o c h2, h = h1 ++ ODefine n t (Some b) o c :: h2 ∧ wd_type d = t ∧
      (∀ x, x ∈ h2 → ¬ (op_name x = n ∧ (is_define_op x = true ∨ is_alias_op x = true))).
  Proof.
    revert d. induction h as [|o h IH] using rev_ind; intros d Hd Hb.
    - done.
    - rewrite run_snoc in Hd. destruct (decide (op_name o = n)) as [Hn|Hne].
      + destruct o as [n' t b' os c|a p|n' k v|n' k v]; simpl in Hn; subst; simpl in Hd.
        * unfold define in Hd. destruct (get_def_create (run h) n) as [d0 s1]. simpl in Hd.
          rewrite lookup_insert in Hd. injection Hd as <-. simpl in *. subst.
          exists h, t, os, c, []. split; [done|]. split; [done|]. intros x Hx. by apply elem_of_nil in Hx.
        * unfold alias in Hd. simpl in Hd. by rewrite lookup_delete in Hd.
        * (unfold set_property in Hd; unfold get_def_create in Hd).
          destruct (sp_defs (run h) !! n) as [d0|] eqn:E; simpl in Hd; rewrite lookup_insert in Hd;
            injection Hd as <-; simpl in Hb; [|done].
          destruct (IH d0 eq_refl Hb) as (h1&t&o&c&h2&->&Ht&Hno).
          exists h1, t, o, c, (h2 ++ [OSetProperty n k v]). split; [by rewrite <- app_assoc|].
          split; [done|]. intros x Hx. apply elem_of_app in Hx as [Hx|Hx]; [by apply Hno|].
          apply elem_of_list_singleton in Hx as ->. simpl. naive_solver.
        * (unfold add_property in Hd; unfold get_def_create in Hd).
          destruct (sp_defs (run h) !! n) as [d0|] eqn:E; simpl in Hd; rewrite lookup_insert in Hd;
            injection Hd as <-; simpl in Hb; [|done].
          destruct (IH d0 eq_refl Hb) as (h1&t&o&c&h2&->&Ht&Hno).
          exists h1, t, o, c, (h2 ++ [OAddProperty n k v]). split; [by rewrite <- app_assoc|].
          split; [done|]. intros x Hx. apply elem_of_app in Hx as [Hx|Hx]; [by apply Hno|].
          apply elem_of_list_singleton in Hx as ->. simpl. naive_solver.
      + rewrite step_defs_ne in Hd by done. destruct (IH d Hd Hb) as (h1&t&o'&c&h2&->&Ht&Hno).
        exists h1, t, o', c, (h2 ++ [o]). split; [by rewrite <- app_assoc|]. split; [done|].
        intros x Hx. apply elem_of_app in Hx as [Hx|Hx]; [by apply Hno|].
        apply elem_of_list_singleton in Hx as ->. naive_solver.
  Qed.

  Lemma name_inv h n d : sp_defs (run h) !! n = Some d → wd_name d = n.
  Proof.
    revert d. induction h as [|o h IH] using rev_ind; intros d Hd; [done|].
    rewrite run_snoc in Hd. destruct (decide (op_name o = n)) as [Hn|Hne].
    - assert (∀ d0, d0 = (get_def_create (run h) n).1 → wd_name d0 = n) as Hc.
      { intros d0 ->. unfold get_def_create. destruct (sp_defs (run h) !! n) eqn:E; simpl; eauto. }
      destruct o as [n' t b' os c|a p|n' k v|n' k v]; simpl in Hn; subst; simpl in Hd;
       (unfold define in Hd; unfold alias in Hd; unfold set_property in Hd; unfold add_property in Hd).
      + destruct (get_def_create (run h) n) as [d0 s1] eqn:E. simpl in Hd.
        rewrite lookup_insert in Hd. injection Hd as <-. simpl. by apply Hc.
      + simpl in Hd. by rewrite lookup_delete in Hd.
      + destruct (get_def_create (run h) n) as [d0 s1] eqn:E. simpl in Hd.
        rewrite lookup_insert in Hd. injection Hd as <-. simpl. by apply Hc.
      + destruct (get_def_create (run h) n) as [d0 s1] eqn:E. simpl in Hd.
        rewrite lookup_insert in Hd. injection Hd as <-. simpl. by apply Hc.
    - rewrite step_defs_ne in Hd by done. eauto.
  Qed.

  (** ** Properties *)
  Lemma props_snoc h o n k :
    expected_props (h ++ [o]) n k =
      match o with
      | OAlias a _ => if bool_decide (a = n) then [] else expected_props h n k
      | OSetProperty n' k' v => if bool_decide (n' = n ∧ k' = k) then [v] else expected_props h n k
      | OAddProperty n' k' v =>
          if bool_decide (n' = n ∧ k' = k) then expected_props h n k ++ [v] else expected_props h n k
      | ODefine _ _ _ _ _ => expected_props h n k
      end.
  Proof. unfold expected_props. rewrite rev_app_distr. by destruct o. Qed.

  Definition props_at s n k : list V :=
    match sp_defs s !! n with Some d => default [] (wd_props d !! k) | None => [] end.

  Lemma gdc_props s n k :
    default [] (wd_props (get_def_create s n).1 !! k) = props_at s n k.
  Proof.
    unfold get_def_create, props_at. destruct (sp_defs s !! n) eqn:E; simpl; [done|].
    by rewrite lookup_empty.
  Qed.

  Lemma props_at_run h n k : k ≠ "callsite" → props_at (run h) n k = expected_props h n k.
  Proof.
    intros Hk. induction h as [|o h IH] using rev_ind; [done|].
    (rewrite run_snoc; rewrite props_snoc; rewrite <- IH).
    destruct (decide (op_name o = n)) as [Hn|Hne].
    - pose proof (gdc_props (run h) n k) as Hg.
      destruct o as [n' t b' os c|a p|n' k' v|n' k' v]; simpl in Hn; subst; simpl;
        (unfold define; unfold alias; unfold set_property; unfold add_property).
      + destruct (get_def_create (run h) n) as [d0 s1] eqn:E. simpl in *.
        unfold props_at at 1. simpl. rewrite lookup_insert. simpl. (rewrite lookup_insert_ne; try done).
      + unfold props_at at 1. simpl. rewrite lookup_delete. by rewrite bool_decide_true.
      + destruct (get_def_create (run h) n) as [d0 s1] eqn:E. simpl in *.
        unfold props_at at 1. simpl. rewrite lookup_insert. simpl.
        destruct (decide (k' = k)) as [->|Hkk].
        * (rewrite lookup_insert; rewrite bool_decide_true; try done).
        * (rewrite lookup_insert_ne by done; rewrite bool_decide_false); [exact Hg|naive_solver].
      + destruct (get_def_create (run h) n) as [d0 s1] eqn:E. simpl in *.
        unfold props_at at 1. simpl. rewrite lookup_insert. simpl.
        destruct (decide (k' = k)) as [->|Hkk].
        * (rewrite lookup_insert; rewrite bool_decide_true by done; simpl; rewrite Hg; try done).
        * (rewrite lookup_insert_ne by done; rewrite bool_decide_false); [exact Hg|naive_solver].
    - unfold props_at. (rewrite step_defs_ne; try done).
      destruct o as [n' t b' os c|a p|n' k' v|n' k' v]; simpl in Hne; try done;
        rewrite bool_decide_false; naive_solver.
  Qed.

  Theorem properties_of_history h n k :
    k ≠ "callsite" → n ∈ defs (run h) →
    get_properties (run h) n k = Some (expected_props h n k) ∧
    get_property (run h) n k =
      Some (match expected_props h n k with [v] => Some v | _ => None end).
  Proof.
    intros Hk [d Hd]%elem_defs. pose proof (props_at_run h n k Hk) as Hp.
    unfold props_at in Hp. rewrite Hd in Hp.
    unfold get_properties, get_property. rewrite Hd. simpl. by rewrite Hp.
  Qed.

  Lemma properties_absent h n k :
    n ∉ defs (run h) → get_properties (run h) n k = None ∧ get_property (run h) n k = None.
  Proof.
    rewrite elem_defs. intros H. unfold get_properties, get_property.
    destruct (sp_defs (run h) !! n) eqn:E; [destruct H; eauto|done].
  Qed.

  (** ** Aliases *)
  Lemma resolve_sound f s n m : resolve_alias f s n = Some m → alias_end s n m.
  Proof.
    revert n. induction f as [|f IH]; intros n; simpl; [done|].
    destruct (sp_aliases s !! n) as [p|] eqn:E.
    - intros H. eapply alias_end_next; eauto.
    - intros [= <-]. by apply alias_end_here.
  Qed.

  Lemma alias_end_fun s n m m' : alias_end s n m → alias_end s n m' → m = m'.
  Proof.
    intros H1. revert m'. induction H1 as [n Hn|n p m Hn H IH]; intros m' H2.
    - destruct H2; [done|congruence].
    - destruct H2 as [n Hn'|n p' m' Hn' H2]; [congruence|]. simplify_eq. eauto.
  Qed.

  Lemma resolve_mono f f' s n m : resolve_alias f s n = Some m → f ≤ f' → resolve_alias f' s n = Some m.
  Proof.
    revert f' n. induction f as [|f IH]; intros f' n H Hle; simpl in H; [done|].
    destruct f' as [|f']; [lia|]. simpl.
    destruct (sp_aliases s !! n) eqn:E; [apply IH; [done|lia] | done].
  Qed.

  Lemma alias_path_trans s a b c : alias_path s a b → alias_path s b c → alias_path s a c.
  Proof. induction 1; intros; eapply alias_path_more; eauto. Qed.

  (** Walk with a visited set: either ends within the number of aliases, or hits a cycle. *)
  Lemma walk s (vis : gset string) f n :
    vis ⊆ dom (sp_aliases s) →
    (∀ v, v ∈ vis → alias_path s v n) →
    size (dom (sp_aliases s)) < size vis + f →
    (∃ m, resolve_alias f s n = Some m) ∨ alias_cycle s n.
  Proof.
    revert vis n. induction f as [|f IH]; intros vis n Hsub Hvis Hsz.
    - apply subseteq_size in Hsub. lia.
    - simpl. destruct (sp_aliases s !! n) as [p|] eqn:E; [|eauto].
      destruct (decide (n ∈ vis)) as [Hin|Hnin].
      + right. exists n. split; [by left|]. by apply Hvis.
      + destruct (IH ({[n]} ∪ vis) p) as [H|(c&Hc&Hcc)].
        * apply union_subseteq; split; [|done]. apply singleton_subseteq_l. apply elem_of_dom. eauto.
        * intros v [->%elem_of_singleton|Hv]%elem_of_union; [by apply alias_path_one|].
          eapply alias_path_trans; [by apply Hvis|]. by apply alias_path_one.
        * rewrite size_union; [|set_solver]. rewrite size_singleton. lia.
        * eauto.
        * right. exists c. split; [|done]. right. destruct Hc as [->|Hc].
          -- by apply alias_path_one.
          -- eapply alias_path_more; eauto.
  Qed.

  Lemma path_no_end s n m : alias_path s n m → ∀ e, alias_end s n e → alias_end s m e.
  Proof.
    induction 1 as [n p Hn|n p m Hn H IH]; intros e He.
    - destruct He as [n Hn'|n p' e Hn' He]; [congruence|]. by simplify_eq.
    - destruct He as [n Hn'|n p' e Hn' He]; [congruence|]. simplify_eq. eauto.
  Qed.

  (** An alias end is at a finite distance, cycles are not. *)
  Inductive dist s : string → nat → Prop :=
  | dist0 n : get_alias s n = None → dist s n 0
  | distS n p k : get_alias s n = Some p → dist s p k → dist s n (S k).
  Lemma end_dist s n m : alias_end s n m → ∃ k, dist s n k.
  Proof.
    induction 1 as [n Hn|n p m Hn H [k IH]].
    - exists 0. by apply dist0.
    - exists (S k). by eapply distS.
  Qed.
  Lemma dist_fun s n k k' : dist s n k → dist s n k' → k = k'.
  Proof.
    intros H. revert k'. induction H as [n Hn|n p k Hn H IH]; intros k' H'; inversion H'; simplify_eq; [done|].
    f_equal. eauto.
  Qed.
  Lemma path_dist s n m k : alias_path s n m → dist s n k → ∃ k', dist s m k' ∧ k' < k.
  Proof.
    intros H. revert k. induction H as [n p Hn|n p m Hn H IH]; intros k Hk; inversion Hk; simplify_eq; try congruence.
    - eexists. split; [done|lia].
    - destruct (IH _ H1) as (k'&?&?). exists k'. split; [done|lia].
  Qed.
  Lemma cycle_no_end s n m : alias_cycle s n → ¬ alias_end s n m.
  Proof.
    intros (c&Hc&Hcc) He.
    assert (alias_end s c m) as Hce by (destruct Hc as [->|Hc]; [done|exact (path_no_end _ _ _ Hc _ He)]).
    apply end_dist in Hce as [k Hk]. destruct (path_dist s c c k Hcc Hk) as (k'&Hk'&Hlt).
    pose proof (dist_fun s c k k' Hk Hk'). lia.
  Qed.

  Definition enough s : nat := S (size (dom (sp_aliases s))).

  Lemma resolve_or_cycle s n :
    (∃ m, resolve_alias (enough s) s n = Some m) ∨ alias_cycle s n.
  Proof.
    apply (walk s ∅).
    - set_solver.
    - set_solver.
    - unfold enough. rewrite size_empty. lia.
  Qed.

  Theorem resolve_correct s n :
    (∀ m, alias_end s n m → ∃ N, ∀ f, N ≤ f → get_def f s n = Some (sp_defs s !! m)) ∧
    ((∃ m, alias_end s n m) ∨ alias_cycle s n) ∧
    (alias_cycle s n → ∀ f, get_def f s n = None).
  Proof.
    split_and!.
    - intros m Hm. exists (enough s). intros f Hf. unfold get_def.
      destruct (resolve_or_cycle s n) as [[m' Hr]|Hc].
      + rewrite (resolve_mono _ _ _ _ _ Hr Hf). apply resolve_sound in Hr.
        by rewrite (alias_end_fun _ _ _ _ Hr Hm).
      + by destruct (cycle_no_end _ _ _ Hc Hm).
    - destruct (resolve_or_cycle s n) as [[m' Hr]|Hc]; [|by right].
      left. exists m'. by apply resolve_sound in Hr.
    - intros Hc f. unfold get_def. destruct (resolve_alias f s n) as [m|] eqn:E; [|done].
      apply resolve_sound in E. by destruct (cycle_no_end _ _ _ Hc E).
  Qed.
End proofs.

Section proofs2.
  Context {T B V : Type}.
  Notation op := (op T B V).

  Lemma call_frame (h : list op) (o : op) (n : string) :
    op_name o ≠ n →
    get_alias (run (h ++ [o])) n = get_alias (run h) n ∧
    (n ∈ defs (run (h ++ [o])) ↔ n ∈ defs (run h)) ∧
    (∀ k, get_properties (run (h ++ [o])) n k = get_properties (run h) n k) ∧
    (∀ f, n ∈ defs (run h) → get_def (S f) (run (h ++ [o])) n = get_def (S f) (run h) n).
  Proof.
    intros Hne. rewrite run_snoc. split_and!.
    - apply step_aliases_ne. done.
    - (rewrite !elem_defs; rewrite step_defs_ne; try done).
    - intros k. unfold get_properties. (rewrite step_defs_ne; try done).
    - intros f [d Hd]%elem_defs.
      rewrite (get_def_direct _ n d f Hd (run_excl h)).
      apply get_def_direct; [(rewrite step_defs_ne; try done)| apply step_excl, run_excl].
  Qed.

  Lemma def_source (h : list op) n d b f :
    n ∈ defs (run h) → get_def (S f) (run h) n = Some (Some d) → wd_build d = Some b →
    ∃ h1 t o c h2, h = h1 ++ ODefine n t (Some b) o c :: h2 ∧ wd_type d = t ∧ wd_name d = n ∧
      (∀ x, x ∈ h2 → ¬ (op_name x = n ∧ (is_define_op x = true ∨ is_alias_op x = true))).
  Proof.
    intros [d' Hd]%elem_defs Hg Hb. rewrite (get_def_direct _ n d' f Hd (run_excl h)) in Hg.
    simplify_eq. destruct (def_has_source h n d b Hd Hb) as (h1&t&o&c&h2&->&Ht&Hno).
    exists h1, t, o, c, h2. split_and!; try done. by eapply name_inv.
  Qed.
End proofs2.
