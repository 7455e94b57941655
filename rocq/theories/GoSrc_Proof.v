(** * Proofs about the Go source parser *)
From Verif Require Import GoSrc_Model GoSrc_Spec.

(** ** Imports *)
Lemma named_imports_Some f x p :
  named_imports f !! x = Some p → x ≠ "." ∧ ∃ i, i ∈ f_imports f ∧ imported_as i = x ∧ i.2 = p.
Proof.
  unfold named_imports. induction (f_imports f) as [|i l IH] using rev_ind; simpl; [by rewrite lookup_empty|].
  rewrite foldl_app. simpl. case_bool_decide as Hd.
  - intros H. destruct (IH H) as (? & j & Hj & ?). split; [done|]. exists j. split; [|done]. set_solver.
  - rewrite lookup_insert_Some. intros [[Hx Hp]|[_ H]].
    + split; [congruence|]. exists i. split; [set_solver|done].
    + destruct (IH H) as (? & j & Hj & ?). split; [done|]. exists j. split; [|done]. set_solver.
Qed.
Lemma named_imports_is_Some f x i :
  x ≠ "." → i ∈ f_imports f → imported_as i = x → is_Some (named_imports f !! x).
Proof.
  intros Hx. unfold named_imports. induction (f_imports f) as [|j l IH] using rev_ind; simpl; [set_solver|].
  rewrite foldl_app, elem_of_app, elem_of_list_singleton. simpl. intros [H| ->] Hi.
  - case_bool_decide; [by apply IH|]. destruct (decide (imported_as j = x)) as [->|Hne].
    + rewrite lookup_insert. eauto.
    + rewrite lookup_insert_ne by done. by apply IH.
  - case_bool_decide; [congruence|]. rewrite Hi, lookup_insert. eauto.
Qed.
Lemma imported_imports_as W f i :
  plain_imports W f → i ∈ f_imports f → imports_as W f (imported_as i) i.2.
Proof.
  intros (Hown & _) Hi. destruct i as [[x|] p]; [by left|]. right. split; [done|]. unfold imported_as. simpl.
  symmetry. by apply Hown.
Qed.
Lemma imports_as_imported W f x p :
  plain_imports W f → imports_as W f x p → ∃ i, i ∈ f_imports f ∧ imported_as i = x ∧ i.2 = p.
Proof.
  intros (Hown & _) [Hi|[Hi ->]]; eexists; (split; [exact Hi|]); [done|]. split; [|done]. unfold imported_as. simpl.
  symmetry. by apply Hown.
Qed.
Lemma dot_imports_elem W f p : plain_imports W f → p ∈ dot_imports f ↔ imports_as W f "." p.
Proof.
  intros Hf. unfold dot_imports. rewrite elem_of_list_fmap. split.
  - intros (i & -> & Hi). apply elem_of_list_filter in Hi as [Hd Hi]. rewrite <- Hd. by apply imported_imports_as.
  - intros H. destruct (imports_as_imported _ _ _ _ Hf H) as (i & Hi & Hd & <-). exists i. split; [done|].
    by apply elem_of_list_filter.
Qed.

(** ** Types *)
Section resolve.
  Context (W : world) (pkg : string) (fs : list file) (types : gset string).
  Context (Htypes : ∀ n, n ∈ types ↔ is_type fs n).
  Context (Hhide : ∀ n, n ∈ "any" :: basics → ¬ is_type fs n ∧ (∀ f p, f ∈ fs → ¬ dot_type W f p n)).
  Context (f : file) (tps : list string).
  Context (Hf : f ∈ fs) (Himp : plain_imports W f).
  Context (Htps : ∀ x, x ∈ tps → x ∉ "any" :: basics ∧ ¬ is_type fs x).

  Lemma resolve_denotes e t : denotes W pkg fs f tps e t → resolve pkg types f tps e = t.
  Proof using Htypes Hhide Hf Himp Htps.
    induction 1 as [n Hn|n Hn Ht|p n Hn Ht Hd|n Hn Ht Hd Hb|Hn Ht Hd|x p n Hx Hx' Hi|len e t _ IH|k v t u _ IHk _ IHv
      |e t _ IH|e t _ IH|e t _ IH|e t _ IH|e t _ IH|s|s|s|e a t _ IH]; simpl; rewrite ?IH, ?IHk, ?IHv; try done.
    - destruct (Htps n Hn) as [H1 H2]. unfold resolve_ident. rewrite 2!bool_decide_eq_false_2 by set_solver.
      rewrite bool_decide_eq_false_2 by (by rewrite Htypes). by rewrite bool_decide_eq_true_2.
    - assert (n ∉ "any" :: basics) as Hnb by (intros H; by apply (proj1 (Hhide n H))).
      unfold resolve_ident. rewrite 2!bool_decide_eq_false_2 by set_solver. by rewrite bool_decide_eq_true_2 by (by apply Htypes).
    - assert (n ∉ "any" :: basics) as Hnb by (intros H; by apply (proj2 (Hhide n H) f p)).
      unfold resolve_ident. rewrite 2!bool_decide_eq_false_2 by set_solver.
      rewrite 2!bool_decide_eq_false_2 by (by rewrite ?Htypes). destruct Hd as [Hd _].
      apply (dot_imports_elem W f p Himp) in Hd. destruct Himp as (_ & _ & Hlen).
      destruct (dot_imports f) as [|q [|]]; simpl in *; try lia; [by apply elem_of_nil in Hd|].
      apply elem_of_list_singleton in Hd. congruence.
    - unfold resolve_ident. by rewrite bool_decide_eq_true_2.
    - destruct (imports_as_imported _ _ _ _ Himp Hi) as (i & Hin & Hix & Hip).
      destruct (named_imports_is_Some f x i Hx Hin Hix) as [q Hq]. unfold resolve_selector. rewrite Hq.
      destruct (named_imports_Some _ _ _ Hq) as (_ & j & Hj & Hjx & Hjq). f_equal.
      destruct Himp as (? & Huniq & ?). eapply Huniq; [exact Hx'| |exact Hi]. rewrite <- Hjx, <- Hjq. by apply imported_imports_as.
  Qed.
  Lemma denotes_not_nil e t : denotes W pkg fs f tps e t → t ≠ TNil.
  Proof using Type. by inversion 1. Qed.
End resolve.

Section parse_sig.
  Context (W : world) (pkg : string) (fs : list file) (types : gset string).
  Context (Htypes : ∀ n, n ∈ types ↔ is_type fs n).
  Context (Hhide : ∀ n, n ∈ "any" :: basics → ¬ is_type fs n ∧ (∀ f p, f ∈ fs → ¬ dot_type W f p n)).
  Context (f : file) (Hf : f ∈ fs) (Himp : plain_imports W f).

  Lemma parse_fields_denote ps ts : fields_denote W pkg fs f [] ps ts → parse_fields pkg types f ps = Some ts.
  Proof using Htypes Hhide Hf Himp.
    unfold fields_denote. revert ts. induction ps as [|[ns e] ps IH]; intros ts; simpl.
    { by intros ->%Forall2_nil_inv_l. }
    assert (∀ t, denotes W pkg fs f [] e t → resolve pkg types f [] e = t ∧ t ≠ TNil) as Hres.
    { intros t Ht. split; [|by eapply denotes_not_nil]. eapply resolve_denotes; eauto. intros x Hx. by apply elem_of_nil in Hx. }
    destruct ns as [|n ns].
    - intros ([n t] & ts' & [Hn Ht] & Hts & ->)%Forall2_cons_inv_l. destruct (Hres _ Ht) as [-> Hnn]. simpl in *. subst n.
      rewrite (IH _ Hts). by destruct t.
    - simpl. intros ([m t] & ts0 & [Hn Ht] & Hts0 & ->)%Forall2_cons_inv_l. simpl in *. subst m.
      destruct (Hres _ Ht) as [Hr Hnn]. apply Forall2_app_inv_l in Hts0 as (ts1 & ts2 & H1 & H2 & ->).
      assert (ts1 = map (λ n, (n, t)) ns) as ->.
      { clear -H1 Hr Hres. revert ts1 H1. induction ns as [|n ns IH]; intros ts1 H1; simpl in *.
        - by apply Forall2_nil_inv_l in H1.
        - apply Forall2_cons_inv_l in H1 as ([m u] & ts & [? Hu] & H1 & ->). simpl in *. subst m.
          f_equal; [|by apply IH]. f_equal. destruct (Hres _ Hu) as [? _]. congruence. }
      rewrite Hr, (IH _ H2). by destruct t.
  Qed.
  Lemma fields_denote_exists ps :
    (∀ ns e, (ns, e) ∈ ps → ∃ t, denotes W pkg fs f [] e t) → ∃ ts, fields_denote W pkg fs f [] ps ts.
  Proof using Type.
    unfold fields_denote. induction ps as [|[ns e] ps IH]; intros H; simpl; [exists []; constructor|].
    destruct IH as [ts Hts]; [intros; eapply H; by right|]. destruct (H ns e) as [t Ht]; [by left|].
    destruct ns as [|n ns].
    - exists (("", t) :: ts). by constructor.
    - exists (map (λ n, (n, t)) (n :: ns) ++ ts). apply Forall2_app; [|done].
      clear -Ht. induction (n :: ns); simpl; constructor; done.
  Qed.
  Lemma parse_func_denotes n s g :
    sg_tparams s = [] → func_denotes W pkg fs f n s g → parse_func pkg types n (f, s) = Some g.
  Proof using Htypes Hhide Hf Himp.
    intros Hs (Hn & Ha & Hr). unfold parse_func. rewrite Hs in *. simpl.
    rewrite (parse_fields_denote _ _ Ha), (parse_fields_denote _ _ Hr). destruct g; simpl in *. by subst.
  Qed.
  Lemma func_denotes_exists n s :
    sg_tparams s = [] → sig_typed W pkg fs f s → ∃ g, func_denotes W pkg fs f n s g.
  Proof using Type.
    clear types Htypes Hhide Hf Himp. intros Hs Ht. unfold sig_typed in Ht. unfold func_denotes. rewrite Hs in *.
    destruct (fields_denote_exists (sg_params s)) as [a Ha]; [intros ns e ?; apply (Ht ns); set_solver|].
    destruct (fields_denote_exists (sg_results s)) as [r Hr]; [intros ns e ?; apply (Ht ns); set_solver|].
    exists (Func n a r). done.
  Qed.
End parse_sig.

(** ** Loading *)
Definition flat (fs : list file) : list (file * decl) := fs ≫= λ f, (λ d, (f, d)) <$> f_decls f.
Lemma elem_of_flat fs f d : (f, d) ∈ flat fs ↔ f ∈ fs ∧ d ∈ f_decls f.
Proof.
  unfold flat. rewrite elem_of_list_bind. split.
  - intros (g & (d' & [= -> ->] & Hd)%elem_of_list_fmap & Hg). done.
  - intros [H1 H2]. exists f. split; [|done]. apply elem_of_list_fmap. eauto.
Qed.
Definition type_step (l : loaded) (fd : file * decl) : loaded :=
  match fd.2 with
  | DType n tps b =>
      let l := Loaded ({[n]} ∪ ld_types l) (ld_structs l) (ld_ifaces l) (ld_funcs l) in
      match b with
      | BInterface ms => Loaded (ld_types l) (ld_structs l) (<[n := (load_members fd.1 ms ∅).1]> (ld_ifaces l)) (ld_funcs l)
      | BStruct es => Loaded (ld_types l) (<[n := RStruct fd.1 tps es ∅]> (ld_structs l)) (ld_ifaces l) (ld_funcs l)
      | BOther => l
      end
  | _ => l
  end.
Lemma load_members_ok f ms : ∀ acc, (∀ e, MEmbedded e ∉ ms) → (load_members f ms acc).2 = true.
Proof.
  induction ms as [|[n s|e] ms IH]; intros acc H; simpl; [done|apply IH; set_solver|]. destruct (H e). set_solver.
Qed.
Lemma load_members_Some f ms : ∀ acc n x, (∀ e, MEmbedded e ∉ ms) → (load_members f ms acc).1 !! n = Some x →
  acc !! n = Some x ∨ ∃ s, MMethod n s ∈ ms ∧ x = (f, s).
Proof.
  induction ms as [|[m s|e] ms IH]; intros acc n x He H; simpl in *; [by left| |].
  - apply IH in H as [H|(s' & ? & ->)]; [|right; exists s'; set_solver|set_solver].
    apply lookup_insert_Some in H as [[-> <-]|[_ H]]; [right; exists s; set_solver|by left].
  - destruct (He e). set_solver.
Qed.
Lemma load_members_is_Some f ms : ∀ acc n, (∀ e, MEmbedded e ∉ ms) →
  is_Some (acc !! n) ∨ (∃ s, MMethod n s ∈ ms) → is_Some ((load_members f ms acc).1 !! n).
Proof.
  induction ms as [|[m s|e] ms IH]; intros acc n He H; simpl in *.
  - destruct H as [?|(? & ?%elem_of_nil)]; done.
  - apply IH; [set_solver|]. destruct (decide (m = n)) as [->|Hne]; [left; rewrite lookup_insert; eauto|].
    rewrite lookup_insert_ne by done. destruct H as [?|(s' & [[= ? ?]|?]%elem_of_cons)]; [by left|congruence|right; eauto].
  - destruct (He e). set_solver.
Qed.
Lemma load_types_flat f ds : ∀ l, (∀ n tps ms e, DType n tps (BInterface ms) ∈ ds → MEmbedded e ∉ ms) →
  load_types f ds l = (foldl type_step l ((λ d, (f, d)) <$> ds), true).
Proof.
  induction ds as [|d ds IH]; intros l H; [done|]. rewrite fmap_cons. simpl foldl.
  assert (∀ n tps ms e, DType n tps (BInterface ms) ∈ ds → MEmbedded e ∉ ms) as H' by (intros; eapply H; by right).
  destruct d as [n tps [ms|es|]|r n s|]; simpl; try apply (IH _ H').
  assert (∀ e, MEmbedded e ∉ ms) as He by (intros e; eapply H; by left).
  pose proof (load_members_ok f ms ∅ He) as Hok. unfold type_step at 2. simpl. destruct (load_members f ms ∅) as [m ok]. simpl in *. subst ok.
  apply (IH _ H').
Qed.
Lemma over_types_flat fs : ∀ l, (∀ f n tps ms e, declares_type fs f n tps (BInterface ms) → MEmbedded e ∉ ms) →
  over_files load_types fs l = (foldl type_step l (flat fs), true).
Proof.
  induction fs as [|f fs IH]; intros l H; [done|]. simpl. unfold declares_type in H. rewrite load_types_flat.
  - rewrite IH; [|intros ????? [? ?]; eapply H; split; [by right|done]]. unfold flat. simpl. by rewrite foldl_app.
  - intros n tps ms e Hd. eapply H. split; [by left|done].
Qed.

Lemma types_fold ds : ∀ l n, n ∈ ld_types (foldl type_step l ds) ↔ n ∈ ld_types l ∨ ∃ f tps b, (f, DType n tps b) ∈ ds.
Proof.
  induction ds as [|[f d] ds IH] using rev_ind; intros l n; simpl.
  - split; [by left|]. intros [?|(? & ? & ? & ?%elem_of_nil)]; done.
  - rewrite foldl_app. simpl. unfold type_step at 1. simpl.
    destruct d as [m tps b|r m s|]; simpl.
    + assert (n ∈ ({[m]} ∪ ld_types (foldl type_step l ds)) ↔ n ∈ ld_types l ∨ ∃ f0 tps0 b0, (f0, DType n tps0 b0) ∈ ds ++ [(f, DType m tps b)]) as Hg.
      { rewrite elem_of_union, elem_of_singleton, IH. split.
        - intros [->|[?|(? & ? & ? & ?)]]; [right; exists f, tps, b; set_solver|by left|right; do 3 eexists; apply elem_of_app; left; eassumption].
        - intros [?|(f' & tps' & b' & [?|[= ? ? ? ?]%elem_of_list_singleton]%elem_of_app)]; [by auto|right; right; eauto|by left]. }
      by destruct b.
    + rewrite IH. split; [intros [?|(? & ? & ? & ?)]; [by left|right; do 3 eexists; apply elem_of_app; left; eassumption]|].
      intros [?|(f' & tps' & b' & [?|[= ? ?]%elem_of_list_singleton]%elem_of_app)]; [by left|right; eauto].
    + rewrite IH. split; [intros [?|(? & ? & ? & ?)]; [by left|right; do 3 eexists; apply elem_of_app; left; eassumption]|].
      intros [?|(f' & tps' & b' & [?|[= ? ?]%elem_of_list_singleton]%elem_of_app)]; [by left|right; eauto].
Qed.
Lemma structs_fold ds : ∀ n st, ld_structs (foldl type_step empty_loaded ds) !! n = Some st →
  ∃ f tps es, (f, DType n tps (BStruct es)) ∈ ds ∧ st = RStruct f tps es ∅.
Proof.
  induction ds as [|[f d] ds IH] using rev_ind; intros n st; simpl; [by rewrite lookup_empty|].
  rewrite foldl_app. simpl. unfold type_step at 1. simpl.
  assert (ld_structs (foldl type_step empty_loaded ds) !! n = Some st →
    ∃ f0 tps es, (f0, DType n tps (BStruct es)) ∈ ds ++ [(f, d)] ∧ st = RStruct f0 tps es ∅) as Hold.
  { intros (f' & tps & es & ? & ?)%IH. exists f', tps, es. set_solver. }
  destruct d as [m tps [ms|es|]|r m s|]; simpl; try exact Hold.
  rewrite lookup_insert_Some. intros [[-> <-]|[_ H]]; [|by apply Hold]. exists f, tps, es. set_solver.
Qed.
Lemma structs_fold_Some ds n : (∃ f tps es, (f, DType n tps (BStruct es)) ∈ ds) →
  is_Some (ld_structs (foldl type_step empty_loaded ds) !! n).
Proof.
  induction ds as [|[f d] ds IH] using rev_ind; intros (f' & tps' & es' & H); [by apply elem_of_nil in H|].
  rewrite foldl_app. simpl. unfold type_step at 1. simpl.
  apply elem_of_app in H as [H|H].
  - destruct IH as [st Hst]; [eauto|]. destruct d as [m tps [ms|es|]|r m s|]; simpl; eauto.
    destruct (decide (m = n)) as [->|?]; [rewrite lookup_insert; eauto|rewrite lookup_insert_ne by done; eauto].
  - apply elem_of_list_singleton in H as [= <- <-]. simpl. rewrite lookup_insert. eauto.
Qed.
Lemma ifaces_fold ds : ∀ n m, ld_ifaces (foldl type_step empty_loaded ds) !! n = Some m →
  ∃ f tps ms, (f, DType n tps (BInterface ms)) ∈ ds ∧ m = (load_members f ms ∅).1.
Proof.
  induction ds as [|[f d] ds IH] using rev_ind; intros n mm; simpl; [by rewrite lookup_empty|].
  rewrite foldl_app. simpl. unfold type_step at 1. simpl.
  assert (ld_ifaces (foldl type_step empty_loaded ds) !! n = Some mm →
    ∃ f0 tps ms, (f0, DType n tps (BInterface ms)) ∈ ds ++ [(f, d)] ∧ mm = (load_members f0 ms ∅).1) as Hold.
  { intros (f' & tps & es & ? & ?)%IH. exists f', tps, es. set_solver. }
  destruct d as [m tps [ms|es|]|r m s|]; simpl; try exact Hold.
  rewrite lookup_insert_Some. intros [[-> <-]|[_ H]]; [|by apply Hold]. exists f, tps, ms. set_solver.
Qed.
Lemma ifaces_fold_Some ds n : (∃ f tps ms, (f, DType n tps (BInterface ms)) ∈ ds) →
  is_Some (ld_ifaces (foldl type_step empty_loaded ds) !! n).
Proof.
  induction ds as [|[f d] ds IH] using rev_ind; intros (f' & tps' & es' & H); [by apply elem_of_nil in H|].
  rewrite foldl_app. simpl. unfold type_step at 1. simpl.
  apply elem_of_app in H as [H|H].
  - destruct IH as [st Hst]; [eauto|]. destruct d as [m tps [ms|es|]|r m s|]; simpl; eauto.
    destruct (decide (m = n)) as [->|?]; [rewrite lookup_insert; eauto|rewrite lookup_insert_ne by done; eauto].
  - apply elem_of_list_singleton in H as [= <- <-]. simpl. rewrite lookup_insert. eauto.
Qed.
Lemma funcs_fold_types ds : ld_funcs (foldl type_step empty_loaded ds) = ∅.
Proof.
  induction ds as [|[f d] ds IH] using rev_ind; [done|]. rewrite foldl_app. simpl. unfold type_step at 1. simpl.
  by destruct d as [m tps [ms|es|]|r m s|].
Qed.

Definition add_method (st : rstruct) (n : string) (x : file * signature) : rstruct :=
  RStruct (rs_file st) (rs_tparams st) (rs_fields st) (<[n := x]> (rs_methods st)).
Definition func_step (l : loaded) (fd : file * decl) : loaded :=
  match fd.2 with
  | DFunc None n s => Loaded (ld_types l) (ld_structs l) (ld_ifaces l) (<[n := (fd.1, s)]> (ld_funcs l))
  | DFunc (Some r) n s =>
      Loaded (ld_types l) (alter (λ st, add_method st n (fd.1, s)) (receiver_name r) (ld_structs l)) (ld_ifaces l) (ld_funcs l)
  | _ => l
  end.
Lemma func_step_structs l fd n : is_Some (ld_structs (func_step l fd) !! n) ↔ is_Some (ld_structs l !! n).
Proof.
  unfold func_step. destruct fd as [f [? ? ?|[r|] m s|]]; simpl; try done.
  destruct (decide (receiver_name r = n)) as [->|?]; [by rewrite lookup_alter, fmap_is_Some|by rewrite lookup_alter_ne].
Qed.
Lemma load_funcs_flat f ds : ∀ l,
  (∀ r n s, DFunc (Some r) n s ∈ ds → is_Some (ld_structs l !! receiver_name r)) →
  load_funcs f ds l = (foldl func_step l ((λ d, (f, d)) <$> ds), true).
Proof.
  induction ds as [|d ds IH]; intros l H; [done|]. rewrite fmap_cons. simpl foldl.
  assert (∀ l', (∀ n, is_Some (ld_structs l' !! n) ↔ is_Some (ld_structs l !! n)) →
    load_funcs f ds l' = (foldl func_step l' ((λ d, (f, d)) <$> ds), true)) as IH'.
  { intros l' Hl. apply IH. intros. rewrite Hl. eapply H. by right. }
  destruct d as [n tps b|[r|] n s|]; simpl; try (by apply IH').
  destruct (H r n s) as [st Hst]; [by left|]. rewrite Hst.
  assert (<[receiver_name r := RStruct (rs_file st) (rs_tparams st) (rs_fields st) (<[n := (f, s)]> (rs_methods st))]> (ld_structs l)
    = alter (λ st, add_method st n (f, s)) (receiver_name r) (ld_structs l)) as ->.
  { apply map_eq. intros i. destruct (decide (receiver_name r = i)) as [<-|?].
    - by rewrite lookup_insert, lookup_alter, Hst.
    - by rewrite lookup_insert_ne, lookup_alter_ne. }
  apply (IH' (func_step l (f, DFunc (Some r) n s))). intros. apply func_step_structs.
Qed.
Lemma fold_structs ds : ∀ l n, is_Some (ld_structs (foldl func_step l ds) !! n) ↔ is_Some (ld_structs l !! n).
Proof.
  induction ds as [|fd ds IH]; intros l n; [done|]. simpl. rewrite IH. apply func_step_structs.
Qed.
Lemma over_funcs_flat fs : ∀ l,
  (∀ f r n s, f ∈ fs → DFunc (Some r) n s ∈ f_decls f → is_Some (ld_structs l !! receiver_name r)) →
  over_files load_funcs fs l = (foldl func_step l (flat fs), true).
Proof.
  induction fs as [|f fs IH]; intros l H; [done|]. simpl. rewrite load_funcs_flat.
  - rewrite IH; [unfold flat; simpl; by rewrite foldl_app|]. intros g r n s Hg Hd. rewrite fold_structs. eapply H; [by right|done].
  - intros r n s Hd. eapply H; [by left|done].
Qed.
Lemma fold_same ds : ∀ l, ld_types (foldl func_step l ds) = ld_types l ∧ ld_ifaces (foldl func_step l ds) = ld_ifaces l.
Proof.
  induction ds as [|[f d] ds IH]; intros l; [done|]. simpl. destruct (IH (func_step l (f, d))) as [-> ->].
  unfold func_step. by destruct d as [? ? ?|[r|] m s|].
Qed.
Lemma fold_funcs ds l : ld_funcs l = ∅ → ∀ n x, ld_funcs (foldl func_step l ds) !! n = Some x →
  ∃ f s, (f, DFunc None n s) ∈ ds ∧ x = (f, s).
Proof.
  intros Hl. induction ds as [|[f d] ds IH] using rev_ind; intros n x; simpl; [by rewrite Hl, lookup_empty|].
  rewrite foldl_app. simpl. unfold func_step at 1. simpl.
  assert (ld_funcs (foldl func_step l ds) !! n = Some x → ∃ f0 s, (f0, DFunc None n s) ∈ ds ++ [(f, d)] ∧ x = (f0, s)) as Hold.
  { intros (f' & s & ? & ?)%IH. exists f', s. set_solver. }
  destruct d as [? ? ?|[r|] m s|]; simpl; try exact Hold.
  rewrite lookup_insert_Some. intros [[-> <-]|[_ H]]; [|by apply Hold]. exists f, s. set_solver.
Qed.
Lemma fold_funcs_Some ds l n : (∃ f s, (f, DFunc None n s) ∈ ds) → is_Some (ld_funcs (foldl func_step l ds) !! n).
Proof.
  induction ds as [|[f d] ds IH] using rev_ind; intros (f' & s' & H); [by apply elem_of_nil in H|].
  rewrite foldl_app. simpl. unfold func_step at 1. simpl. apply elem_of_app in H as [H|H].
  - destruct IH as [x Hx]; [eauto|]. destruct d as [? ? ?|[r|] m s|]; simpl; eauto.
    destruct (decide (m = n)) as [->|?]; [rewrite lookup_insert; eauto|rewrite lookup_insert_ne by done; eauto].
  - apply elem_of_list_singleton in H as [= <- <-]. simpl. rewrite lookup_insert. eauto.
Qed.
(** The struct [st] of the loaded package [l], methods added by the declarations [ds]. *)
Lemma fold_methods ds l : ∀ k st, ld_structs (foldl func_step l ds) !! k = Some st →
  ∃ st0, ld_structs l !! k = Some st0 ∧ rs_file st = rs_file st0 ∧ rs_tparams st = rs_tparams st0 ∧ rs_fields st = rs_fields st0 ∧
    (∀ n x, rs_methods st !! n = Some x → rs_methods st0 !! n = Some x ∨
       ∃ f r s, (f, DFunc (Some r) n s) ∈ ds ∧ receiver_name r = k ∧ x = (f, s)) ∧
    (∀ n, (∃ f r s, (f, DFunc (Some r) n s) ∈ ds ∧ receiver_name r = k) → is_Some (rs_methods st !! n)).
Proof.
  induction ds as [|[f d] ds IH] using rev_ind; intros k st; simpl.
  { intros H. exists st. split_and!; [done..|by left|]. intros n (? & ? & ? & ?%elem_of_nil & _). done. }
  rewrite foldl_app. simpl.
  assert (ld_structs (func_step (foldl func_step l ds) (f, d)) !! k = Some st →
    ∃ st1, ld_structs (foldl func_step l ds) !! k = Some st1 ∧
      (st = st1 ∧ (∀ r n s, d = DFunc (Some r) n s → receiver_name r ≠ k) ∨
       ∃ r n s, d = DFunc (Some r) n s ∧ receiver_name r = k ∧ st = add_method st1 n (f, s))) as Hstep.
  { clear IH. generalize (foldl func_step l ds) as l1. intros l1.
    unfold func_step. simpl. destruct d as [? ? ?|[r|] m s|]; simpl; try (intros ?; exists st; split; [done|left; split; [done|intros ? ? ? [=]]]; fail).
    destruct (decide (receiver_name r = k)) as [<-|Hne].
    - rewrite lookup_alter. destruct (ld_structs l1 !! receiver_name r) as [st1|]; [|done].
      intros [= <-]. exists st1. split; [done|]. right. eauto 10.
    - rewrite lookup_alter_ne by done. intros ?. exists st. split; [done|]. left. split; [done|]. intros r' n' s' [= -> -> ->]. done. }
  intros H. destruct (Hstep H) as (st1 & H1 & Hcase). clear Hstep H.
  destruct (IH _ _ H1) as (st0 & H0 & Hf & Ht & Hfs & Hm & Hc). exists st0.
  destruct Hcase as [[-> Hne]|(r & n & s & -> & Hr & ->)].
  - split_and!; try done.
    + intros n x Hx. destruct (Hm n x Hx) as [?|(g & r & s & ? & ? & ?)]; [by left|]. right. exists g, r, s. set_solver.
    + intros n (g & r & s & [Hin|[= -> <-]%elem_of_list_singleton]%elem_of_app & Hr); [eapply Hc; eauto 10|]. by destruct (Hne r n s).
  - unfold add_method. simpl. split_and!; try done.
    + intros m x [[-> <-]|[_ Hx]]%lookup_insert_Some; [right; exists f, r, s; set_solver|].
      destruct (Hm m x Hx) as [?|(g & r' & s' & ? & ? & ?)]; [by left|]. right. exists g, r', s'. set_solver.
    + intros m (g & r' & s' & [Hin|[= -> -> -> ->]%elem_of_list_singleton]%elem_of_app & Hr').
      * destruct (decide (n = m)) as [->|?]; [rewrite lookup_insert; eauto|rewrite lookup_insert_ne by done]. eapply Hc; eauto 10.
      * rewrite lookup_insert. eauto.
Qed.

Lemma all_ok_Some {A B} (g : string → A → option B) m :
  (∀ n x, m !! n = Some x → is_Some (g n x)) → all_ok g m = Some (map_imap g m).
Proof. intros H. unfold all_ok. by rewrite bool_decide_eq_true_2. Qed.

Section package.
  Context (W : world) (pkg : string) (fs fs1 fs2 : list file).
  Context (Hacc : acceptable W pkg fs) (H1 : fs1 ≡ₚ fs) (H2 : fs2 ≡ₚ fs).
  Let l := load_package fs1 fs2.

  Lemma load_package_eq : l = foldl func_step (foldl type_step empty_loaded (flat fs1)) (flat fs2).
  Proof using Hacc H1 H2.
    destruct Hacc as (_ & _ & (He & _ & _ & Hr) & _ & _). subst l. unfold load_package.
    rewrite over_types_flat; [|intros f n tps ms e [Hf Hd]; eapply He; split; [by rewrite <- H1|done]].
    rewrite over_funcs_flat; [done|]. intros f r n s Hf Hd. rewrite H2 in Hf.
    destruct (Hr f r n s Hf Hd) as (st & Hst & (g & tps & es & Hg & Hgd)).
    assert (receiver_name r = st) as -> by (by destruct Hst as [->| ->]).
    apply structs_fold_Some. exists g, tps, es. apply elem_of_flat. by rewrite H1.
  Qed.
  Lemma load_types_iff n : n ∈ ld_types l ↔ is_type fs n.
  Proof using Hacc H1 H2.
    rewrite load_package_eq. rewrite (proj1 (fold_same _ _)), types_fold. simpl. unfold is_type, declares_type. split.
    - intros [?|(f & tps & b & Hd%elem_of_flat)]; [set_solver|]. rewrite H1 in Hd. eauto 10.
    - intros (f & tps & b & Hd). right. exists f, tps, b. apply elem_of_flat. by rewrite H1.
  Qed.
  Lemma method_flat k f r n s : (f, DFunc (Some r) n s) ∈ flat fs2 → receiver_name r = k → declares_method fs f k n s.
  Proof using Hacc H2.
    intros [Hf Hd]%elem_of_flat Hk. rewrite H2 in Hf. destruct Hacc as (_ & _ & (_ & _ & _ & Hr) & _ & _).
    destruct (Hr f r n s Hf Hd) as (st & [-> | ->] & _); simpl in Hk; subst; split; auto.
  Qed.
  Lemma load_structs k st : ld_structs l !! k = Some st →
    ∃ f tps es, declares_type fs f k tps (BStruct es) ∧ rs_file st = f ∧ rs_tparams st = tps ∧ rs_fields st = es ∧
      (∀ n x, rs_methods st !! n = Some x → ∃ f s, declares_method fs f k n s ∧ x = (f, s)) ∧
      (∀ n f s, declares_method fs f k n s → is_Some (rs_methods st !! n)).
  Proof using Hacc H1 H2.
    rewrite load_package_eq. intros (st0 & Hs0 & Hf & Ht & Hfs & Hm & Hc)%fold_methods.
    apply structs_fold in Hs0 as (f & tps & es & [Hff Hd]%elem_of_flat & ->). rewrite H1 in Hff.
    exists f, tps, es. simpl in *. split_and!; try done.
    - intros n x [Hx|(g & r & s & Hin & Hr & ->)]%Hm; [by rewrite lookup_empty in Hx|].
      exists g, s. split; [by eapply method_flat|done].
    - intros n g s [Hg Hd']. apply Hc. rewrite <- H2 in Hg. destruct Hd' as [Hd'|Hd']; exists g; eexists; exists s;
        (split; [by apply elem_of_flat|done]).
  Qed.
  Lemma load_structs_is k : is_struct fs k → is_Some (ld_structs l !! k).
  Proof using Hacc H1 H2.
    rewrite load_package_eq, fold_structs. intros (f & tps & es & Hf & Hd). apply structs_fold_Some. exists f, tps, es.
    apply elem_of_flat. by rewrite H1.
  Qed.
  Lemma load_ifaces k m : ld_ifaces l !! k = Some m →
    ∃ f tps ms, declares_type fs f k tps (BInterface ms) ∧
      (∀ n x, m !! n = Some x → ∃ s, MMethod n s ∈ ms ∧ x = (f, s)) ∧
      (∀ n s, MMethod n s ∈ ms → is_Some (m !! n)).
  Proof using Hacc H1 H2.
    rewrite load_package_eq, (proj2 (fold_same _ _)). intros (f & tps & ms & [Hf Hd]%elem_of_flat & ->)%ifaces_fold.
    rewrite H1 in Hf. exists f, tps, ms. destruct Hacc as (_ & _ & (He & _) & _ & _).
    assert (∀ e, MEmbedded e ∉ ms) as Hem by (intros e; by eapply He).
    split_and!; [done| |].
    - intros n x [Hx|?]%load_members_Some; [by rewrite lookup_empty in Hx|done|done].
    - intros n s Hn. apply load_members_is_Some; [done|right; eauto].
  Qed.
  Lemma load_ifaces_is k : is_iface fs k → is_Some (ld_ifaces l !! k).
  Proof using Hacc H1 H2.
    rewrite load_package_eq, (proj2 (fold_same _ _)). intros (f & tps & es & Hf & Hd). apply ifaces_fold_Some. exists f, tps, es.
    apply elem_of_flat. by rewrite H1.
  Qed.
  Lemma load_funcs_Some n x : ld_funcs l !! n = Some x → ∃ f s, declares_func fs f n s ∧ x = (f, s).
  Proof using Hacc H1 H2.
    rewrite load_package_eq. intros (f & s & [Hf Hd]%elem_of_flat & ->)%fold_funcs; [|apply funcs_fold_types].
    rewrite H2 in Hf. exists f, s. done.
  Qed.
  Lemma load_funcs_is n f s : declares_func fs f n s → is_Some (ld_funcs l !! n).
  Proof using Hacc H1 H2.
    rewrite load_package_eq. intros [Hf Hd]. apply fold_funcs_Some. exists f, s. apply elem_of_flat. by rewrite H2.
  Qed.

  Lemma parse_ok n f s : f ∈ fs → sg_tparams s = [] → sig_typed W pkg fs f s → is_Some (parse_func pkg (ld_types l) n (f, s)).
  Proof using Hacc H1 H2.
    intros Hf Hs Ht. destruct (func_denotes_exists W pkg fs f n s Hs Ht) as [g Hg]. exists g.
    destruct Hacc as (_ & _ & _ & Hh & Hi). eapply parse_func_denotes; [|apply Hh|done| |done|exact Hg].
    - apply load_types_iff.
    - eapply Forall_forall in Hi; eauto.
  Qed.
  Lemma parse_iff n f s g : f ∈ fs → sg_tparams s = [] → sig_typed W pkg fs f s →
    parse_func pkg (ld_types l) n (f, s) = Some g ↔ func_denotes W pkg fs f n s g.
  Proof using Hacc H1 H2.
    intros Hf Hs Ht. destruct Hacc as (_ & _ & _ & Hh & Hi).
    assert (∀ g, func_denotes W pkg fs f n s g → parse_func pkg (ld_types l) n (f, s) = Some g) as Hp.
    { intros g' Hg. eapply parse_func_denotes; [|apply Hh|done| |done|exact Hg].
      - apply load_types_iff.
      - eapply Forall_forall in Hi; eauto. }
    split; [|apply Hp]. intros Hg. destruct (func_denotes_exists W pkg fs f n s Hs Ht) as [g' Hg'].
    pose proof (Hp _ Hg'). congruence.
  Qed.

  Lemma source_package_describes : ∃ p, source_package pkg fs1 fs2 = Some p ∧ describes W pkg fs p.
  Proof using Hacc H1 H2.
    pose proof Hacc as (Hre & (Hty1 & Hty2 & Hty3) & (He & Htp1 & Htp2 & Hr) & (Hh1 & Hh2) & Hi).
    unfold source_package. fold l. unfold parse_package.
    assert (∀ k n f s, declares_method fs f k n s → f ∈ fs ∧ sg_tparams s = [] ∧ sig_typed W pkg fs f s) as Hmeth.
    { intros k n f s [Hf [Hd|Hd]]; eauto. }
    assert (∀ n f s, declares_func fs f n s → f ∈ fs ∧ sg_tparams s = [] ∧ sig_typed W pkg fs f s) as Hfun.
    { intros n f s [Hf Hd]; eauto. }
    assert (∀ k n f tps ms s, declares_type fs f k tps (BInterface ms) → MMethod n s ∈ ms →
      f ∈ fs ∧ sg_tparams s = [] ∧ sig_typed W pkg fs f s) as Himeth.
    { intros k n f tps ms s Hd Hm. split_and!; [by destruct Hd|eauto..]. }
    assert (∀ k m, ld_ifaces l !! k = Some m → all_ok (parse_func pkg (ld_types l)) m = Some (map_imap (parse_func pkg (ld_types l)) m)) as HI.
    { intros k m Hm. apply all_ok_Some. intros n x Hx. destruct (load_ifaces _ _ Hm) as (f & tps & ms & Hd & Ha & _).
      destruct (Ha _ _ Hx) as (s & Hs & ->). edestruct Himeth as (? & ? & ?); [exact Hd|exact Hs|]. by apply parse_ok. }
    assert (∀ k st, ld_structs l !! k = Some st → fields_ok pkg (ld_types l) st = true ∧
      all_ok (parse_func pkg (ld_types l)) (rs_methods st) = Some (map_imap (parse_func pkg (ld_types l)) (rs_methods st))) as HS.
    { intros k st Hst. destruct (load_structs _ _ Hst) as (f & tps & es & Hd & Hfi & Htp & Hes & Hm & _). split.
      - unfold fields_ok. apply forallb_forall. intros e Hein%elem_of_list_In. apply bool_decide_eq_true. rewrite Hes in Hein.
        destruct (Hty2 _ _ _ _ _ Hd Hein) as [t Ht]. rewrite Hfi, Htp.
        erewrite resolve_denotes; [by eapply denotes_not_nil|apply load_types_iff|apply Hh1|apply Hd| |eauto|exact Ht].
        eapply Forall_forall in Hi; [exact Hi|apply Hd].
      - apply all_ok_Some. intros n x Hx. destruct (Hm _ _ Hx) as (g & s & Hs & ->).
        edestruct Hmeth as (? & ? & ?); [exact Hs|]. by apply parse_ok. }
    assert (all_ok (parse_func pkg (ld_types l)) (ld_funcs l) = Some (map_imap (parse_func pkg (ld_types l)) (ld_funcs l))) as HF.
    { apply all_ok_Some. intros n x Hx. destruct (load_funcs_Some _ _ Hx) as (f & s & Hs & ->).
      edestruct Hfun as (? & ? & ?); [exact Hs|]. by apply parse_ok. }
    rewrite HF. rewrite (all_ok_Some _ (ld_ifaces l)) by (intros n x Hx; rewrite (HI n x Hx); eauto).
    rewrite (all_ok_Some _ (ld_structs l)) by (intros n x Hx; destruct (HS n x Hx) as [-> ->]; eauto).
    eexists. split; [reflexivity|]. destruct Hre as (Hu1 & Hu2 & Hu3 & Hu4). unfold describes. simpl. split_and!.
    - done.
    - intros n. rewrite map_lookup_imap. split.
      + intros [y Hy]. apply bind_Some in Hy as (m & Hm & _). destruct (load_ifaces _ _ Hm) as (f & tps & ms & Hd & _).
        by exists f, tps, ms.
      + intros Hif. destruct (load_ifaces_is n Hif) as [m Hm]. rewrite Hm. simpl. rewrite (HI _ _ Hm). eauto.
    - intros n. rewrite map_lookup_imap. split.
      + intros [y Hy]. apply bind_Some in Hy as (m & Hm & _). destruct (load_structs _ _ Hm) as (f & tps & es & Hd & _).
        by exists f, tps, es.
      + intros Hif. destruct (load_structs_is n Hif) as [m Hm]. rewrite Hm. simpl. destruct (HS _ _ Hm) as [-> ->]. eauto.
    - intros i m g. setoid_rewrite map_lookup_imap.
        intros (gs & Hgs & Hg). apply bind_Some in Hgs as (ms & Hms & Hgs). rewrite (HI _ _ Hms) in Hgs.
        injection Hgs as <-. rewrite map_lookup_imap in Hg. apply bind_Some in Hg as (x & Hx & Hg).
        destruct (load_ifaces _ _ Hms) as (f & tps & mems & Hd & Ha & _). destruct (Ha _ _ Hx) as (s & Hs & ->).
        exists f, s. split; [by exists tps, mems|]. edestruct Himeth as (? & ? & ?); [exact Hd|exact Hs|].
        by apply parse_iff.
    - intros i m g f s Hi0 Hm0 (tps & mems & Hd & Hs) Hg. rewrite map_lookup_imap. destruct (load_ifaces_is i) as [ms Hms]; [by exists f, tps, mems|].
        rewrite Hms. simpl. rewrite (HI _ _ Hms). eexists. split; [done|]. rewrite map_lookup_imap.
        destruct (load_ifaces _ _ Hms) as (f' & tps' & mems' & Hd' & Ha & Hb).
        destruct (Hu1 _ _ _ _ _ _ _ Hi0 Hd Hd') as (<- & <- & [= <-]).
        destruct (Hb _ _ Hs) as [x Hx]. rewrite Hx. simpl. destruct (Ha _ _ Hx) as (s' & Hs' & ->).
        destruct (Hu2 _ _ _ _ _ _ _ Hm0 Hd Hs Hs'). edestruct Himeth as (? & ? & ?); [exact Hd|exact Hs|].
        by apply parse_iff.
    - intros st m g. setoid_rewrite map_lookup_imap.
        intros (gs & Hgs & Hg). apply bind_Some in Hgs as (ms & Hms & Hgs). destruct (HS _ _ Hms) as [HS1 HS2]. rewrite HS1, HS2 in Hgs.
        injection Hgs as <-. rewrite map_lookup_imap in Hg. apply bind_Some in Hg as (x & Hx & Hg).
        destruct (load_structs _ _ Hms) as (f & tps & es & Hd & _ & _ & _ & Ha & _). destruct (Ha _ _ Hx) as (f' & s & Hs & ->).
        exists f', s. split; [done|]. edestruct Hmeth as (? & ? & ?); [exact Hs|]. by apply parse_iff.
    - intros st m g f s Hm0 Hs Hg. rewrite map_lookup_imap. assert (is_struct fs st) as Hst.
        { destruct Hs as [Hf [Hd|Hd]]; destruct (Hr _ _ _ _ Hf Hd) as (st' & [E|E] & ?); congruence. }
        destruct (load_structs_is st Hst) as [ms Hms].
        rewrite Hms. simpl. destruct (HS _ _ Hms) as [-> ->]. eexists. split; [done|]. rewrite map_lookup_imap.
        destruct (load_structs _ _ Hms) as (f' & tps' & es & Hd' & _ & _ & _ & Ha & Hb).
        destruct (Hb _ _ _ Hs) as [x Hx]. rewrite Hx. simpl. destruct (Ha _ _ Hx) as (f'' & s' & Hs' & ->).
        destruct (Hu3 _ _ _ _ _ _ Hm0 Hs Hs') as [<- <-]. edestruct Hmeth as (? & ? & ?); [exact Hs|]. by apply parse_iff.
    - intros n g. rewrite map_lookup_imap. intros Hg. apply bind_Some in Hg as (x & Hx & Hg). destruct (load_funcs_Some _ _ Hx) as (f & s & Hs & ->).
        exists f, s. split; [done|]. edestruct Hfun as (? & ? & ?); [exact Hs|]. by apply parse_iff.
    - intros n g f s Hn Hn' Hs Hg. rewrite map_lookup_imap. destruct (load_funcs_is _ _ _ Hs) as [x Hx]. rewrite Hx. simpl.
        destruct (load_funcs_Some _ _ Hx) as (f' & s' & Hs' & ->). destruct (Hu4 _ _ _ _ _ Hn Hn' Hs Hs') as [<- <-].
        edestruct Hfun as (? & ? & ?); [exact Hs|]. by apply parse_iff.
  Qed.
End package.

(** ** Embedded interfaces *)
Definition no_funcs (l : loaded) : Prop :=
  ld_funcs l = ∅ ∧ ∀ n st, ld_structs l !! n = Some st → rs_methods st = ∅.
Lemma load_types_no_funcs f ds : ∀ l, no_funcs l → no_funcs (load_types f ds l).1.
Proof.
  induction ds as [|d ds IH]; intros l Hl; [done|]. destruct d as [n tps [ms|es|]|r n s|]; simpl; try (by apply IH).
  - destruct (load_members f ms ∅) as [m []]; simpl; [by apply IH|done].
  - apply IH. split; [apply Hl|]. simpl. intros k st [[-> <-]|[_ H]]%lookup_insert_Some; [done|]. by eapply Hl.
Qed.
Lemma load_members_embedded f ms e : ∀ acc, MEmbedded e ∈ ms → (load_members f ms acc).2 = false.
Proof.
  induction ms as [|[n s|e'] ms IH]; intros acc H; simpl; [by apply elem_of_nil in H| |done].
  apply IH. by apply elem_of_cons in H as [[=]|H].
Qed.
Lemma load_types_embedded f ds n tps ms e : ∀ l, DType n tps (BInterface ms) ∈ ds → MEmbedded e ∈ ms → (load_types f ds l).2 = false.
Proof.
  induction ds as [|d ds IH]; intros l Hd He; [by apply elem_of_nil in Hd|]. apply elem_of_cons in Hd as [<-|Hd].
  - simpl. pose proof (load_members_embedded f ms e ∅ He) as H. destruct (load_members f ms ∅) as [m []]; simpl in *; done.
  - destruct d as [k tps' [ms'|es|]|r k s|]; simpl; try (by apply IH). destruct (load_members f ms' ∅) as [m []]; [by apply IH|done].
Qed.
Lemma over_types_embedded f n tps ms e fs : ∀ l, no_funcs l → declares_type fs f n tps (BInterface ms) → MEmbedded e ∈ ms →
  ∃ l', over_files load_types fs l = (l', false) ∧ no_funcs l'.
Proof.
  induction fs as [|g fs IH]; intros l Hl [Hf Hd] He; [by apply elem_of_nil in Hf|]. simpl.
  pose proof (load_types_no_funcs g (f_decls g) l Hl) as Hn.
  destruct (load_types g (f_decls g) l) as [l' ok] eqn:E. simpl in Hn. destruct ok; [|eauto].
  apply elem_of_cons in Hf as [<-|Hf]; [|by apply IH].
  pose proof (load_types_embedded f (f_decls f) n tps ms e l Hd He) as H. rewrite E in H. done.
Qed.
Lemma embedded_drops_functions pkg fs1 fs2 f n tps ms e p :
  declares_type fs1 f n tps (BInterface ms) → MEmbedded e ∈ ms → source_package pkg fs1 fs2 = Some p →
  pk_funcs p = ∅ ∧ ∀ st m, pk_structs p !! st = Some m → m = ∅.
Proof.
  intros Hd He. unfold source_package, load_package.
  destruct (over_types_embedded f n tps ms e fs1 empty_loaded) as (l & -> & Hl1 & Hl2); [split; [done|]; intros k st H; simpl in H; by rewrite lookup_empty in H|done..|].
  unfold parse_package, all_ok. rewrite Hl1. repeat case_bool_decide; try done. intros [= <-]. simpl. split; [apply map_imap_empty|].
  intros st m. rewrite map_lookup_imap. intros (x & Hx & Hm)%bind_Some. rewrite (Hl2 _ _ Hx) in Hm.
  destruct (fields_ok pkg (ld_types l) x); [|done]. revert Hm. case_bool_decide; [|done]. intros [= <-]. apply map_imap_empty.
Qed.
