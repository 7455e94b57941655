(** * Proofs about artifact building and IR traversal *)
From Verif Require Import IRBuild_Model IRBuild_Spec.
From Coq Require Import Lia Sorted.

Lemma built_app h1 h2 : built (h1 ++ h2) = built h1 ++ built h2.
Proof. unfold built. by rewrite map_app, concat_app. Qed.

Lemma filter_sub {A} (P : A → Prop) `{∀ x, Decision (P x)} (l : list A) : filter P l `sublist_of` l.
Proof. induction l as [|x l IH]; [done|]. rewrite filter_cons. case_decide; by constructor. Qed.

Section build.
  Context (assignable : nat → nat → bool) (ok : list act → act → bool).
  Implicit Types (h : list act) (ns rem : list inode) (t : nat).
  Notation builds := (builds assignable).

  Lemma split_compat_filter t ns :
    split_compat assignable t ns = (filter (λ n, builds t n = true) ns, filter (λ n, builds t n = false) ns).
  Proof.
    induction ns as [|n r IH]; [done|]. cbn [split_compat]. rewrite IH, !filter_cons.
    destruct (builds t n); repeat case_decide; congruence.
  Qed.

  Lemma filter_split t ns :
    filter (λ n, builds t n = true) ns ++ filter (λ n, builds t n = false) ns ≡ₚ ns.
  Proof.
    induction ns as [|n r IH]; [done|]. rewrite !filter_cons.
    destruct (builds t n); repeat case_decide; try congruence.
    - cbn. by rewrite IH.
    - by rewrite <-Permutation_middle, IH.
  Qed.

  (** How a phase extends the calls: the calls before, whether all went well, and if not, that it stopped. *)
  Definition all_ok h es : Prop := ∀ pre a post, es = pre ++ a :: post → ok (h ++ pre) a = true.
  Definition stopped h es : Prop := ∃ pre a, es = pre ++ [a] ∧ ok (h ++ pre) a = false ∧ all_ok h pre.

  Lemma all_ok_nil h : all_ok h [].
  Proof. intros pre a post H. by destruct pre. Qed.
  Lemma all_ok_one h a : ok h a = true → all_ok h [a].
  Proof.
    intros H pre b post E. destruct pre as [|x pre]; cbn in E.
    - injection E as <- <-. by rewrite app_nil_r.
    - injection E as _ E. by destruct pre.
  Qed.
  Lemma all_ok_app h e1 e2 : all_ok h e1 → all_ok (h ++ e1) e2 → all_ok h (e1 ++ e2).
  Proof.
    intros H1 H2 pre a post E. revert e2 H2 E.
    destruct (decide (length pre < length e1)) as [L|L]; intros e2 H2 E.
    - apply (H1 pre a (drop (S (length pre)) e1)).
      assert (take (length e1) (e1 ++ e2) = e1) as T by apply take_app.
      rewrite E in T. rewrite take_app_ge in T by lia.
      destruct (length e1 - length pre) as [|k] eqn:EK; [lia|]. cbn in T.
      rewrite <-T at 2. rewrite drop_app_ge by lia. replace (S (length pre) - length pre) with 1 by lia. cbn. by rewrite drop_0.
    - assert (e1 ++ drop (length e1) pre = pre) as P.
      { apply (f_equal (take (length pre))) in E. rewrite take_app in E.
        rewrite <-E at 2. rewrite take_app_ge by lia.
        f_equal. apply (f_equal (drop (length e1))) in E. rewrite take_app_ge in E by lia. rewrite drop_app in E. by symmetry. }
      assert (e2 = drop (length e1) pre ++ a :: post) as E2.
      { apply (app_inv_head e1). by rewrite E, app_assoc, P. }
      specialize (H2 _ _ _ E2). by rewrite <-app_assoc, P in H2.
  Qed.
  Lemma stopped_app h e1 e2 : all_ok h e1 → stopped (h ++ e1) e2 → stopped h (e1 ++ e2).
  Proof.
    intros H1 (pre & a & -> & H2 & H3). exists (e1 ++ pre), a. split_and!.
    - by rewrite app_assoc. - by rewrite app_assoc. - by apply all_ok_app.
  Qed.
  Lemma stopped_one h a : ok h a = false → stopped h [a].
  Proof. intros H. exists [], a. split_and!; [done|by rewrite app_nil_r|apply all_ok_nil]. Qed.
  Lemma stopped_not_ok h es : stopped h es → all_ok h es → False.
  Proof. intros (pre & a & -> & H & _) H2. by rewrite (H2 pre a [] eq_refl) in H. Qed.

  Definition is_build_of (bs : list (nat * bytes)) (a : act) : Prop :=
    match a with
    | ABuild t b l => (t, b) ∈ bs ∧ l ≠ [] ∧ ∀ n, n ∈ l → assignable (in_type n) t = true
    | _ => False
    end.

  Definition nobody (bs : list (nat * bytes)) (n : inode) : Prop := ∀ t b, (t, b) ∈ bs → assignable (in_type n) t = false.

  Lemma build_compatible_spec h t b ns h' r :
    build_compatible assignable ok h t b ns = (h', r) →
    ∃ es, h' = h ++ es ∧ Forall (is_build_of [(t, b)]) es ∧
      (∀ l, ABuild t b l ∈ es ↔ l = filter (λ n, builds t n = true) ns ∧ l ≠ []) ∧
      match r with
      | Some rem => all_ok h es ∧ built es = filter (λ n, builds t n = true) ns ∧ rem = filter (λ n, builds t n = false) ns
      | None => stopped h es ∧ built es = filter (λ n, builds t n = true) ns
      end.
  Proof.
    unfold build_compatible. rewrite split_compat_filter. set (l := filter _ ns). intros H.
    case_bool_decide as L.
    - cbn in H. injection H as <- <-. exists [ABuild t b l].
      assert (l ≠ []) as Hl by (intros E; rewrite E in L; cbn in L; lia).
      split_and!; [done| | |].
      + constructor; [|done]. cbn. split_and!; [set_solver|done|]. intros n. unfold l. rewrite elem_of_list_filter. by intros [? _].
      + intros l'. rewrite elem_of_list_singleton. split; [intros [=->]; done|]. by intros [-> _].
      + destruct (ok h (ABuild t b l)) eqn:O; split_and!; try (by cbn; rewrite app_nil_r).
        * by apply all_ok_one. * done. * by apply stopped_one.
    - injection H as <- <-. exists []. rewrite app_nil_r.
      assert (l = []) as E by (destruct l; [done|cbn in L; lia]).
      split_and!; [done|constructor| |apply all_ok_nil|by cbn|done].
      intros l'. split; [by intros ?%elem_of_nil|]. intros [-> ?]. done.
  Qed.

  Lemma build_loop_spec bs : ∀ h ns h' r,
    build_loop assignable ok h bs ns = (h', r) →
    ∃ es, h' = h ++ es ∧ Forall (is_build_of bs) es ∧
      match r with
      | Some rem => all_ok h es ∧ built es ++ rem ≡ₚ ns ∧ rem `sublist_of` ns ∧ ∀ n, n ∈ rem ↔ n ∈ ns ∧ nobody bs n
      | None => stopped h es ∧ built es ⊆+ ns
      end.
  Proof.
    induction bs as [|[t b] bs IH]; intros h ns h' r H.
    - injection H as <- <-. exists []. rewrite app_nil_r. split_and!; try done; [apply all_ok_nil|].
      intros n. unfold nobody. split; [|tauto]. intros; split; [done|]. intros t b Hn. by apply elem_of_nil in Hn.
    - cbn in H. destruct (build_compatible assignable ok h t b ns) as [h1 r1] eqn:E1.
      pose proof (build_compatible_spec _ _ _ _ _ _ E1) as (e1 & -> & F1 & _ & S1).
      assert (∀ a, is_build_of [(t, b)] a → is_build_of ((t, b) :: bs) a) as W.
      { intros [t' b' l| |]; cbn; [|done|done]. intros (?&?&?). split_and!; [|done|done]. set_solver. }
      destruct r1 as [rem1|].
      + destruct S1 as (O1 & B1 & R1). pose proof (IH _ _ _ _ H) as (e2 & -> & F2 & S2).
        exists (e1 ++ e2). split_and!; [by rewrite app_assoc| |].
        { apply Forall_app; split; eapply Forall_impl; eauto. intros [t' b' l| |]; cbn; [|done|done].
          intros (?&?&?). split_and!; [|done|done]. set_solver. }
        rewrite built_app, B1. destruct r as [rem|].
        * destruct S2 as (O2 & P2 & L2 & M2). split_and!.
          -- by apply all_ok_app.
          -- rewrite <-app_assoc, P2, R1. apply filter_split.
          -- etrans; [apply L2|]. rewrite R1. apply filter_sub.
          -- intros n. rewrite M2, R1, elem_of_list_filter. unfold nobody. split.
             ++ intros [[Hb Hn] Hx]. split; [done|]. intros t' b' [[= -> ->]|Hin]%elem_of_cons; [done|by eapply Hx].
             ++ intros [Hn Hx]. split_and!; [|done|].
                ** unfold IRBuild_Model.builds. apply (Hx t b). set_solver.
                ** intros t' b' Hin. apply (Hx t' b'). set_solver.
        * destruct S2 as (O2 & P2). split; [by apply stopped_app|].
          rewrite <-(filter_split t ns) at 2. rewrite R1 in P2. by apply submseteq_skips_l.
      + injection H as <- <-. destruct S1 as [S1 B1]. exists e1. split_and!; [done| |done|].
        * eapply Forall_impl; eauto.
        * rewrite B1. apply sublist_submseteq, filter_sub.
  Qed.

  (** Under unambiguous types every builder gets all its nodes. *)
  Definition unambiguous (bs : list (nat * bytes)) (ns : list inode) : Prop :=
    ∀ n t1 b1 t2 b2, n ∈ ns → (t1, b1) ∈ bs → (t2, b2) ∈ bs →
      assignable (in_type n) t1 = true → assignable (in_type n) t2 = true → t1 = t2.

  Lemma build_loop_calls bs : ∀ h ns h' rem,
    NoDup bs.*1 → unambiguous bs ns → build_loop assignable ok h bs ns = (h', Some rem) →
    ∃ es, h' = h ++ es ∧
      ∀ t b l, ABuild t b l ∈ es ↔ (t, b) ∈ bs ∧ l = filter (λ n, builds t n = true) ns ∧ l ≠ [].
  Proof.
    induction bs as [|[t b] bs IH]; intros h ns h' rem N U H.
    - injection H as <- <-. exists []. rewrite app_nil_r. split; [done|]. intros t b l. split; [by intros ?%elem_of_nil|].
      by intros [?%elem_of_nil _].
    - cbn in H, N. apply NoDup_cons in N as [N1 N2].
      destruct (build_compatible assignable ok h t b ns) as [h1 r1] eqn:E1.
      pose proof (build_compatible_spec _ _ _ _ _ _ E1) as (e1 & -> & F1 & C1 & S1).
      destruct r1 as [rem1|]; [|done]. destruct S1 as (_ & _ & R1).
      assert (unambiguous bs rem1) as U1.
      { intros n t1 b1 t2 b2 Hn H1 H2. apply (U n t1 b1 t2 b2); [|set_solver|set_solver].
        rewrite R1 in Hn. by apply elem_of_list_filter in Hn as [_ ?]. }
      pose proof (IH _ _ _ _ N2 U1 H) as (e2 & -> & C2).
      exists (e1 ++ e2). split; [by rewrite app_assoc|]. intros t' b' l. rewrite elem_of_app, C2.
      assert (∀ t' b', (t', b') ∈ bs → filter (λ n, builds t' n = true) rem1 = filter (λ n, builds t' n = true) ns) as FF.
      { intros t2 b2 Hin. rewrite R1. clear -U Hin N1. induction ns as [|n r IH]; [done|].
        rewrite (filter_cons (λ n0, builds t n0 = false)).
        assert (unambiguous ((t, b) :: bs) r) as Ur.
        { intros n' ????. intros; eapply (U n'); eauto. by apply elem_of_list_further. }
        destruct (decide (builds t n = false)) as [E|E].
        - rewrite !filter_cons. case_decide; by rewrite (IH Ur).
        - rewrite (IH Ur), filter_cons. case_decide as D; [|done].
          exfalso. apply N1. assert (t = t2) as ->; [|by apply (elem_of_list_fmap_1 fst) in Hin].
          eapply (U n t b t2 b2); try done; [left|left|by right|].
          unfold IRBuild_Model.builds in E. by destruct (assignable (in_type n) t). }
      split.
      + intros [Hin|(Hin & -> & Hl)].
        * pose proof (proj1 (Forall_forall _ _) F1 _ Hin) as (Ht & _ & _).
          apply elem_of_list_singleton in Ht. injection Ht as -> ->. apply C1 in Hin as [-> ?]. split_and!; [left|done|done].
        * rewrite (FF _ _ Hin) in Hl |- *. split_and!; [by right|done|done].
      + intros (Hin & E & Hl). apply elem_of_cons in Hin as [[= -> ->]|Hin].
        * left. by apply C1.
        * right. by rewrite (FF _ _ Hin).
  Qed.

  Definition is_gen_of (ns : list inode) (a : act) : Prop :=
    match a with
    | AGen n d => n ∈ ns ∧ in_gen n = true ∧ d = clean_name (in_name n)
    | ADir d => ∃ n, n ∈ ns ∧ in_gen n = true ∧ d = clean_name (in_name n)
    | ABuild _ _ _ => False
    end.

  Lemma build_generators_spec ns : ∀ h h' r,
    build_generators ok h ns = (h', r) →
    ∃ es, h' = h ++ es ∧ Forall (is_gen_of ns) es ∧
      match r with
      | Some rem => all_ok h es ∧ built es = filter (λ n, in_gen n = true) ns ∧ rem = filter (λ n, in_gen n = false) ns
      | None => stopped h es ∧ built es ⊆+ ns
      end.
  Proof.
    induction ns as [|n ns IH]; intros h h' r H.
    - injection H as <- <-. exists []. rewrite app_nil_r. split_and!; try done. apply all_ok_nil.
    - cbn [build_generators] in H.
      assert (∀ a, is_gen_of ns a → is_gen_of (n :: ns) a) as W.
      { intros [| |]; cbn; [done| |]; [intros (m&?&?&?); exists m|intros (?&?&?)]; split_and!; set_solver. }
      destruct (in_gen n) eqn:G.
      + unfold call in H. set (d := clean_name (in_name n)) in *.
        assert (is_gen_of (n :: ns) (ADir d)) as G1 by (exists n; split_and!; [left|done|done]).
        assert (is_gen_of (n :: ns) (AGen n d)) as G2 by (split_and!; [left|done|done]).
        destruct (ok h (ADir d)) eqn:O1.
        * destruct (ok (h ++ [ADir d]) (AGen n d)) eqn:O2.
          -- pose proof (IH _ _ _ H) as (es & -> & F & S).
             exists ([ADir d; AGen n d] ++ es). split_and!.
             ++ by rewrite !app_assoc, <-(app_assoc h [ADir d]).
             ++ apply Forall_app; split; [by repeat constructor|]. eapply Forall_impl; eauto.
             ++ assert (all_ok h [ADir d; AGen n d]) as O12.
                { apply (all_ok_app h [ADir d] [AGen n d]); by apply all_ok_one. }
                rewrite <-app_assoc in S. cbn [app] in S.
                rewrite built_app. change (built [ADir d; AGen n d]) with [n]. cbn [app].
                destruct r as [rem|].
                ** destruct S as (S1 & S2 & S3). rewrite !filter_cons. repeat case_decide; try congruence.
                   split_and!; [by apply (all_ok_app h [_; _])|by rewrite S2|done].
                ** destruct S as (S1 & S2). split; [by apply (stopped_app h [_; _])|by constructor].
          -- injection H as <- <-. exists [ADir d; AGen n d]. split_and!; [by rewrite <-app_assoc|by repeat constructor| |].
             ++ apply (stopped_app h [ADir d] [AGen n d]); [by apply all_ok_one|by apply stopped_one].
             ++ change (built [ADir d; AGen n d]) with [n]. apply submseteq_skip, submseteq_nil_l.
        * injection H as <- <-. exists [ADir d]. split_and!; [done|by repeat constructor|by apply stopped_one|].
          cbn. apply submseteq_nil_l.
      + destruct (build_generators ok h ns) as [h1 r1] eqn:E1. injection H as <- <-.
        pose proof (IH _ _ _ E1) as (es & -> & F & S). exists es. split_and!; [done|eapply Forall_impl; eauto|].
        destruct r1 as [rem|].
        * destruct S as (S1 & S2 & S3). cbn [fmap option_fmap option_map]. rewrite !filter_cons. repeat case_decide; try congruence.
          split_and!; [done|done|by rewrite <-S3].
        * destruct S as (S1 & S2). split; [done|]. cbn. by apply submseteq_cons.
  Qed.

  (** The calls that were made and how they went, in one place. *)
  Lemma build_all_spec isdir mk bs ns h res :
    build_all assignable ok isdir mk bs ns = (h, res) →
    (isdir = false ∧ mk = true ∨ h = [] ∧ res = false ∧ (isdir = true ∨ mk = false)) ∧
    built h ⊆+ ns ∧
    (∀ a, a ∈ h → match a with
      | ABuild t b l => (t, b) ∈ bs ∧ l ≠ [] ∧ ∀ n, n ∈ l → assignable (in_type n) t = true
      | ADir d => ∃ n, n ∈ ns ∧ in_gen n = true ∧ nobody bs n ∧ d = clean_name (in_name n)
      | AGen n d => in_gen n = true ∧ nobody bs n ∧ d = clean_name (in_name n)
      end) ∧
    (all_ok [] h ∨ stopped [] h ∧ res = false) ∧
    (res = true → built h ≡ₚ ns) ∧
    (isdir = false → mk = true → all_ok [] h → (res = true ↔ ∀ n, n ∈ ns → (∃ t b, (t, b) ∈ bs ∧ assignable (in_type n) t = true) ∨ in_gen n = true)).
  Proof.
    unfold build_all. intros H.
    destruct isdir.
    { injection H as <- <-. split_and!; try done; [right; eauto|apply submseteq_nil_l|by intros a ?%elem_of_nil|left; apply all_ok_nil]. }
    destruct mk; cbn in H.
    2:{ injection H as <- <-. split_and!; try done; [right; eauto|apply submseteq_nil_l|by intros a ?%elem_of_nil|left; apply all_ok_nil]. }
    split; [by left|].
    destruct (build_loop assignable ok [] bs ns) as [h1 r1] eqn:E1.
    pose proof (build_loop_spec _ _ _ _ _ E1) as (e1 & EE & F1 & S1). cbn in EE; subst h1.
    assert (∀ a, a ∈ e1 → is_build_of bs a) as F1' by (by apply Forall_forall).
    destruct r1 as [rem1|].
    - destruct S1 as (O1 & P1 & L1 & M1).
      destruct (build_generators ok e1 rem1) as [h2 r2] eqn:E2.
      pose proof (build_generators_spec _ _ _ _ E2) as (e2 & -> & F2 & S2).
      assert (∀ a, a ∈ e2 → is_gen_of rem1 a) as F2' by (by apply Forall_forall).
      assert (∀ a, a ∈ e1 ++ e2 → match a with
        | ABuild t b l => (t, b) ∈ bs ∧ l ≠ [] ∧ ∀ n, n ∈ l → assignable (in_type n) t = true
        | ADir d => ∃ n, n ∈ ns ∧ in_gen n = true ∧ nobody bs n ∧ d = clean_name (in_name n)
        | AGen n d => in_gen n = true ∧ nobody bs n ∧ d = clean_name (in_name n)
        end) as FA.
      { intros a [Ha|Ha]%elem_of_app.
        - specialize (F1' _ Ha). destruct a; cbn in F1'; done.
        - specialize (F2' _ Ha). destruct a as [| |n d]; cbn in F2'; [done| |].
          + destruct F2' as (n & Hn & ? & ?). apply M1 in Hn as [??]. eauto.
          + destruct F2' as (Hn & ? & ?). apply M1 in Hn as [??]. eauto. }
      assert (built (e1 ++ e2) ⊆+ ns) as SM.
      { rewrite built_app, <-P1. apply submseteq_skips_l. destruct r2 as [rem2|]; [|by destruct S2].
        destruct S2 as (_ & -> & _). apply sublist_submseteq, filter_sub. }
      destruct r2 as [rem2|].
      + destruct S2 as (O2 & B2 & R2). injection H as <- <-.
        assert (all_ok [] (e1 ++ e2)) as OA by (by apply all_ok_app).
        split_and!; [done|done|by left| |].
        * intros E. apply bool_decide_eq_true in E. destruct rem2 as [|]; [|done].
          rewrite built_app, B2, <-P1. f_equiv.
          clear -R2. induction rem1 as [|n r IH]; [done|]. rewrite filter_cons in R2 |- *.
          destruct (in_gen n); repeat case_decide; try done. by rewrite IH.
        * intros _ _ _. rewrite bool_decide_eq_true. split.
          -- intros E n Hn. destruct rem2; [|done]. destruct (in_gen n) eqn:G; [by right|left].
             destruct (decide (Exists (λ p, assignable (in_type n) p.1 = true) bs)) as [X|X].
             ++ apply Exists_exists in X as ([t b] & ? & ?). eauto.
             ++ exfalso. assert (n ∈ filter (λ n, in_gen n = false) rem1) as Z; [|rewrite <-R2 in Z; by apply elem_of_nil in Z].
                apply elem_of_list_filter. split; [done|]. apply M1. split; [done|].
                intros t b Hin. destruct (assignable (in_type n) t) eqn:Y; [|done].
                exfalso. apply X, Exists_exists. by exists (t, b).
          -- intros E. destruct rem2 as [|n rem2]; [done|exfalso].
             assert (n ∈ filter (λ n, in_gen n = false) rem1) as Z by (rewrite <-R2; left).
             apply elem_of_list_filter in Z as [Z1 Z2]. apply M1 in Z2 as [Z2 Z3].
             destruct (E _ Z2) as [(t & b & Hin & Y)|Y]; [|congruence]. by rewrite (Z3 _ _ Hin) in Y.
      + destruct S2 as (O2 & B2). injection H as <- <-.
        assert (stopped [] (e1 ++ e2)) as OA by (by apply stopped_app).
        split_and!; [done|done|by right|done|].
        intros _ _ Y. by destruct (stopped_not_ok _ _ OA Y).
    - destruct S1 as (O1 & B1). injection H as <- <-. split_and!; [done| |by right|done|].
      + intros a Ha. specialize (F1' _ Ha). by destruct a.
      + intros _ _ Y. by destruct (stopped_not_ok _ _ O1 Y).
  Qed.
End build.

Lemma registered_snoc regs b : registered (regs ++ [b]) = register (registered regs) b.
Proof. unfold registered. by rewrite fold_left_app. Qed.

Lemma registered_last regs t b : registered regs !! t = Some b ↔ last_registered regs t b.
Proof.
  induction regs as [|[t' b'] regs IH] using rev_ind.
  - unfold registered, last_registered. cbn [fold_left]. rewrite lookup_empty. split; [done|]. intros (l1 & l2 & E & _). by destruct l1.
  - rewrite registered_snoc. unfold register. cbn. destruct (decide (t = t')) as [->|N].
    + rewrite lookup_insert. split.
      * intros [= ->]. exists regs, []. split; [done|]. intros ? H. by apply elem_of_nil in H.
      * intros (l1 & l2 & E & H). destruct l2 as [|x l2 _] using rev_ind.
        -- apply app_inj_tail in E as [_ [=]]. congruence.
        -- rewrite app_comm_cons, app_assoc in E. apply app_inj_tail in E as [_ <-]. destruct (H b'). apply elem_of_app. right. left.
    + rewrite lookup_insert_ne by done. rewrite IH. split.
      * intros (l1 & l2 & -> & H). exists l1, (l2 ++ [(t', b')]). split; [by rewrite <-app_assoc|].
        intros b0. rewrite elem_of_app, elem_of_list_singleton. intros [?|[=]]; [by eapply H|done].
      * intros (l1 & l2 & E & H). destruct l2 as [|x l2 _] using rev_ind.
        -- apply app_inj_tail in E as [_ [=]]. congruence.
        -- rewrite app_comm_cons, app_assoc in E. apply app_inj_tail in E as [-> <-]. exists l1, l2. split; [done|].
           intros b0 Hb. apply (H b0). set_solver.
Qed.

(** ** Filters *)
Section filters.
  Context {A : Type} (isT : A → bool).

  Lemma split_nodes_fst_snd ns acc :
    fold_left (λ acc n, if isT n then (acc.1, acc.2 ++ [n]) else (acc.1 ++ [n], acc.2)) ns acc =
    (acc.1 ++ remove_nodes isT ns, acc.2 ++ filter_nodes isT ns).
  Proof.
    revert acc. induction ns as [|n r IH]; intros [rem ms]; cbn; [by rewrite !app_nil_r|].
    rewrite IH. destruct (isT n); cbn; by rewrite <-!app_assoc.
  Qed.
  Lemma split_nodes_eq ns : split_nodes isT ns = (remove_nodes isT ns, filter_nodes isT ns).
  Proof. unfold split_nodes. by rewrite split_nodes_fst_snd. Qed.

  Lemma shuffle_filters ns : shuffle (remove_nodes isT ns) (filter_nodes isT ns) ns.
  Proof. induction ns as [|n r IH]; cbn; [constructor|]. destruct (isT n); cbn; by constructor. Qed.
  Lemma filter_nodes_all ns : Forall (λ n, isT n = true) (filter_nodes isT ns).
  Proof. induction ns as [|n r IH]; cbn; [constructor|]. destruct (isT n) eqn:E; [by constructor|done]. Qed.
  Lemma remove_nodes_all ns : Forall (λ n, isT n = false) (remove_nodes isT ns).
  Proof. induction ns as [|n r IH]; cbn; [constructor|]. destruct (isT n) eqn:E; [done|by constructor]. Qed.

  Lemma shuffle_unique ns rem ms :
    shuffle rem ms ns → Forall (λ n, isT n = false) rem → Forall (λ n, isT n = true) ms →
    rem = remove_nodes isT ns ∧ ms = filter_nodes isT ns.
  Proof.
    induction 1 as [|x l r w H IH|x l r w H IH]; intros F1 F2; [done| |].
    - apply Forall_cons in F1 as [F0 F1]. destruct (IH F1 F2) as [-> ->]. cbn. by rewrite F0.
    - apply Forall_cons in F2 as [F0 F2]. destruct (IH F1 F2) as [-> ->]. cbn. by rewrite F0.
  Qed.
End filters.

(** ** Traversal *)
Section tree.
  Context {A : Type}.
  Fixpoint irtree_rect' (P : irtree A → Prop)
    (H0 : ∀ a, P (IRT a None)) (H1 : ∀ a ks, Forall P ks → P (IRT a (Some ks))) (t : irtree A) : P t :=
    match t with
    | IRT a None => H0 a
    | IRT a (Some ks) => H1 a ks ((fix go ks := match ks return Forall P ks with
        | [] => List.Forall_nil _
        | k :: r => List.Forall_cons _ _ _ (irtree_rect' P H0 H1 k) (go r) end) ks)
    end.

  (** The places in the order of the traversal. *)
  Fixpoint places (t : irtree A) : list (list nat) :=
    match t with
    | IRT a None => [[]]
    | IRT a (Some ks) => [] :: concat (imap (λ i ps, (i ::.) <$> ps) (map places ks))
    end.

  Lemma places_labels t : Some <$> get_nodes t = at_place t <$> places t.
  Proof.
    induction t as [a|a ks IH] using irtree_rect'; [done|]. cbn. f_equal.
    assert (∀ (f : nat → nat) , (∀ i k, ks !! i = Some k → kids (IRT a (Some ks)) !! f i = Some k) →
      Some <$> concat (map get_nodes ks) = at_place (IRT a (Some ks)) <$> concat (imap (λ i ps, (f i ::.) <$> ps) (map places ks))) as G.
    2:{ apply (G id). by intros. }
    generalize (IRT a (Some ks)) as t0. intros t0. induction IH as [|k r Hk _ IH]; intros f Hf; [done|].
    cbn. rewrite !fmap_app. f_equal.
    - rewrite Hk, <-list_fmap_compose. apply list_fmap_ext. intros i p _. cbn. by rewrite (Hf 0 k eq_refl).
    - rewrite (IH (f ∘ S)); [done|]. intros i k' H. cbn. by apply (Hf (S i)).
  Qed.

  Lemma imap_places_elem (f : nat → nat) ks q :
    q ∈ concat (imap (λ i ps, (f i ::.) <$> ps) (map places ks)) ↔
    ∃ i k p, ks !! i = Some k ∧ q = f i :: p ∧ p ∈ places k.
  Proof.
    revert f. induction ks as [|k r IH]; intros f.
    - cbn. rewrite elem_of_nil. split; [done|]. by intros (?&?&?&?&?).
    - cbn. rewrite elem_of_app. setoid_rewrite (IH (f ∘ S)). rewrite elem_of_list_fmap. split.
      + intros [(p & -> & Hp)|(i & k' & p & H1 & -> & H2)]; [by exists 0, k, p|by exists (S i), k', p].
      + intros ([|i] & k' & p & H1 & -> & H2); cbn in H1; [left|right; eauto 10].
        injection H1 as ->. eauto.
  Qed.

  Lemma places_elem t p : p ∈ places t ↔ is_Some (at_place t p).
  Proof.
    revert p. induction t as [a|a ks IH] using irtree_rect'; intros p.
    - cbn. rewrite elem_of_list_singleton. destruct p; cbn; split; eauto; try done. by intros [? ?].
    - cbn [places]. rewrite elem_of_cons, (imap_places_elem id). split.
      + intros [->|(i & k & q & H1 & -> & H2)]; [by eexists|]. cbn. rewrite H1.
        rewrite Forall_lookup in IH. by apply (IH i k H1).
      + destruct p as [|i q]; [by left|]. right. cbn in H. destruct (ks !! i) as [k|] eqn:E; [|by destruct H].
        exists i, k, q. split_and!; [done|done|]. rewrite Forall_lookup in IH. by apply (IH i k E).
  Qed.

  Lemma before_sorted_cons i ps : StronglySorted before ps → StronglySorted before ((i ::.) <$> ps).
  Proof.
    induction 1 as [|p ps H IH F]; [constructor|]. cbn. constructor; [done|].
    rewrite Forall_fmap. eapply Forall_impl; [done|]. intros q. apply before_down.
  Qed.

  Lemma sorted_app (R : list nat → list nat → Prop) l1 l2 :
    StronglySorted R l1 → StronglySorted R l2 → (∀ x y, x ∈ l1 → y ∈ l2 → R x y) → StronglySorted R (l1 ++ l2).
  Proof.
    induction 1 as [|x l1 H IH F]; intros H2 H3; [done|]. cbn. constructor.
    - apply IH; [done|]. intros; apply H3; [by right|done].
    - apply Forall_app. split; [done|]. apply Forall_forall. intros y Hy. apply H3; [left|done].
  Qed.

  Lemma places_sorted t : StronglySorted before (places t).
  Proof.
    induction t as [a|a ks IH] using irtree_rect'; cbn; [repeat constructor|]. constructor.
    - assert (∀ f : nat → nat, (∀ i j, i < j → f i < f j) → StronglySorted before (concat (imap (λ i ps, (f i ::.) <$> ps) (map places ks)))) as G.
      2:{ by apply (G id). }
      induction IH as [|k r Hk _ IH]; intros f Hf; [constructor|]. cbn. apply sorted_app.
      + by apply before_sorted_cons.
      + apply (IH (f ∘ S)). intros; cbn; apply Hf; lia.
      + intros x y Hx Hy. apply elem_of_list_fmap in Hx as (p & -> & _).
        apply (imap_places_elem (f ∘ S)) in Hy as (i & k' & q & _ & -> & _). apply before_left. cbn. apply Hf. lia.
    - apply Forall_forall. intros q Hq. apply (imap_places_elem id) in Hq as (i & k & p & _ & -> & _). constructor.
  Qed.

  Lemma before_irrefl p : ¬ before p p.
  Proof. induction p as [|i p IH]; inversion 1; subst; [lia|done]. Qed.
  Lemma sorted_NoDup ps : StronglySorted before ps → NoDup ps.
  Proof.
    induction 1 as [|p ps H IH F]; constructor; [|done]. intros Hp.
    rewrite Forall_forall in F. by apply (before_irrefl p), F.
  Qed.

  Lemma places_unique_labels (t : irtree A) :
    (∀ p q a, at_place t p = Some a → at_place t q = Some a → p = q) → NoDup (get_nodes t).
  Proof.
    intros U. apply (NoDup_fmap_1 Some). rewrite places_labels.
    pose proof (sorted_NoDup _ (places_sorted t)) as N.
    assert (∀ p, p ∈ places t → is_Some (at_place t p)) as S by (intros p; apply places_elem).
    induction (places t) as [|p ps IH]; [constructor|]. cbn. apply NoDup_cons in N as [N1 N2]. constructor.
    - intros (q & E & Hq)%elem_of_list_fmap. destruct (S p) as [a Ha]; [left|]. rewrite Ha in E.
      assert (p = q) as -> by (by eapply U). done.
    - apply IH; [done|]. intros; apply S. by right.
  Qed.
End tree.

(** ** Visits *)
Lemma visit_all_spec xs : ∀ s i x, xs !! i = Some x → visit_all s xs !! i = Some (bool_decide (x ∈ s ∨ x ∈ take i xs)).
Proof.
  induction xs as [|y r IH]; intros s i x H; [done|]. cbn. destruct i as [|i]; cbn in H |- *.
  - injection H as ->. f_equal. apply bool_decide_ext. rewrite elem_of_nil. tauto.
  - rewrite (IH _ _ _ H). f_equal. apply bool_decide_ext. rewrite elem_of_union, elem_of_singleton, elem_of_cons. tauto.
Qed.
Lemma visit_all_length xs s : length (visit_all s xs) = length xs.
Proof. revert s. induction xs as [|x r IH]; intros s; cbn; [done|]. by rewrite IH. Qed.
