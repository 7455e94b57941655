From Verif Require Import RunSh_Model RunSh_Spec Env_Proof.
From Coq Require Import ZifyBool ZifyNat ZifyN Lia.
Set Default Proof Using "Type".
Open Scope list_scope.
#[local] Arguments EnvVar : simpl never.
#[local] Arguments FuncName : simpl never.

(** ** The text between the braces *)
Lemma index_of_app c pre post : c ∉ pre → index_of c (pre ++ c :: post) = Some (length pre).
Proof.
  intros Hn. unfold index_of. rewrite list_find_app_r.
  - cbn [list_find]. rewrite decide_True by done. cbn. try (f_equal; lia).
  - apply list_find_None. apply Forall_forall. intros x Hx ->. done.
Qed.
Lemma index_of_none c s : c ∉ s → index_of c s = None.
Proof.
  intros Hn. unfold index_of. rewrite (proj2 (list_find_None _ _)); [done|].
  apply Forall_forall. intros x Hx ->. done.
Qed.
Lemma index_of_None c s : index_of c s = None → c ∉ s.
Proof.
  unfold index_of. intros Hn Hc. destruct (list_find (c =.) s) as [[? ?]|] eqn:E; [done|].
  rewrite list_find_None, Forall_forall in E. by apply (E c).
Qed.
Lemma last_index_of_app c pre post : c ∉ post → last_index_of c (pre ++ c :: post) = Some (length pre).
Proof.
  intros Hn. unfold last_index_of. rewrite reverse_app, reverse_cons, <-app_assoc. cbn.
  rewrite index_of_app by (by rewrite elem_of_reverse). cbn. f_equal.
  rewrite reverse_length, app_length. cbn. lia.
Qed.
Lemma get_func_body_spec pre body post :
  "{"%char ∉ pre → "}"%char ∉ post →
  get_func_body (pre ++ "{"%char :: body ++ "}"%char :: post) = body.
Proof.
  intros H1 H2. unfold get_func_body. rewrite index_of_app by done.
  replace (pre ++ "{"%char :: body ++ "}"%char :: post) with ((pre ++ "{"%char :: body) ++ "}"%char :: post)
    by (by rewrite <-app_assoc).
  rewrite last_index_of_app by done. rewrite app_length. cbn [length].
  destruct (decide (body = [])) as [->|Hne].
  - rewrite bool_decide_false by (cbn; lia). done.
  - assert (length body ≠ 0) by (by destruct body).
    rewrite bool_decide_true by lia.
    replace (length pre + S (length body) - (length pre + 1)) with (length body) by lia.
    rewrite <-app_assoc. rewrite drop_app_ge by lia.
    replace (length pre + 1 - length pre) with 1 by lia. cbn. by rewrite drop_0, take_app.
Qed.
Lemma split_first (c : ascii) s : c ∈ s → ∃ pre post, c ∉ pre ∧ s = pre ++ c :: post.
Proof.
  induction s as [|x s IH]; [by intros ?%elem_of_nil|].
  destruct (decide (x = c)) as [->|Hne].
  - intros _. exists [], s. split; [by intros ?%elem_of_nil|done].
  - intros [?|Hin]%elem_of_cons; [congruence|]. destruct (IH Hin) as (pre&post&?&->).
    exists (x :: pre), post. split; [|done]. by intros [?|?]%elem_of_cons.
Qed.
Lemma split_last (c : ascii) s : c ∈ s → ∃ pre post, c ∉ post ∧ s = pre ++ c :: post.
Proof.
  intros Hin. destruct (split_first c (reverse s)) as (pre&post&Hn&E); [by rewrite elem_of_reverse|].
  exists (reverse post), (reverse pre). rewrite elem_of_reverse. split; [done|].
  apply (f_equal reverse) in E. rewrite reverse_involutive in E. rewrite E, reverse_app, reverse_cons, <-app_assoc. done.
Qed.
(** Without an opening brace the text from the start is taken. *)
Lemma get_func_body_no_open s post :
  "{"%char ∉ s ++ "}"%char :: post → "}"%char ∉ post → get_func_body (s ++ "}"%char :: post) = s.
Proof.
  intros H1 H2. unfold get_func_body. rewrite index_of_none by done. rewrite last_index_of_app by done.
  destruct s as [|x s]; [done|]. rewrite bool_decide_true by (cbn; lia). rewrite Nat.sub_0_r, drop_0. by rewrite take_app.
Qed.

(** ** Declarations *)
Lemma declare_all_spec cs r r' :
  declare_all cs r = Some r' → NoDup (rc_name <$> cs) → (∀ n, declared cs n → rs_funcs r !! n = None) →
  (∀ n, n ∈ rs_nodes r' ↔ n ∈ rs_nodes r ∨ ∃ m, depends cs m n) ∧
  (∀ n, is_Some (rs_funcs r' !! n) ↔ is_Some (rs_funcs r !! n) ∨ declared cs n) ∧
  (∀ c, c ∈ cs → ∃ b, rs_funcs r' !! rc_name c = Some (Some (Rfunc (rc_deps c) b)) ∧ b = get_func_body (rc_cmd c)) ∧
  (∀ n, ¬ declared cs n → rs_funcs r' !! n = rs_funcs r !! n).
Proof.
  revert r. induction cs as [|c cs IH]; intros r; cbn [declare_all].
  - intros [= <-] _ _. split_and!.
    + intros n. split; [by left|]. intros [?|(m&c&Hc&_)]; [done|by apply elem_of_nil in Hc].
    + intros n. split; [by left|]. intros [?|(c&Hc&_)]; [done|by apply elem_of_nil in Hc].
    + by intros c ?%elem_of_nil.
    + done.
  - unfold declare_run_command. destruct (generate_run_func _ _) as [f|] eqn:Ef.
    2:{ by rewrite bool_decide_false by (by intros []). }
    rewrite bool_decide_true by done. intros Hd Hnd Hfresh.
    rewrite fmap_cons in Hnd. apply NoDup_cons in Hnd as [Hni Hnd].
    assert (Hf : f = Rfunc (rc_deps c) (get_func_body (rc_cmd c))).
    { unfold generate_run_func in Ef. by destruct (get_func_body _) eqn:?; simplify_eq. }
    assert (Hni' : ∀ n, declared cs n → n ≠ rc_name c).
    { intros n (c'&Hc'&<-) Heq. apply Hni. rewrite <-Heq. by apply elem_of_list_fmap_1. }
    apply IH in Hd as (I1&I2&I3&I4); [|done|].
    + split_and!.
      * intros n. rewrite I1. cbn. rewrite elem_of_union, elem_of_list_to_set. split.
        -- intros [[Hn|?]|(m&c'&?&?&?)]; [|by left|].
           ++ right. exists (rc_name c), c. split; [left|done].
           ++ right. exists m, c'. split; [by right|done].
        -- intros [?|(m&c'&[->|Hc']%elem_of_cons&?&?)]; [auto|auto|]. right. by exists m, c'.
      * intros n. rewrite I2. cbn. rewrite lookup_insert_is_Some'. split.
        -- intros [[<-|?]|(c'&?&?)]; [|by left|].
           ++ right. exists c. split; [left|done].
           ++ right. exists c'. split; [by right|done].
        -- intros [?|(c'&[->|Hc']%elem_of_cons&?)]; [auto|auto|]. right. by exists c'.
      * intros c' [->|Hc']%elem_of_cons; [|by apply I3].
        eexists. split; [|done]. rewrite I4; [|intros Hx; by apply (Hni' _ Hx)]. cbn. rewrite lookup_insert. by rewrite Hf.
      * intros n Hn. rewrite I4. { cbn. rewrite lookup_insert_ne; [done|]. intros <-. apply Hn. exists c. split; [left|done]. }
        intros (c'&?&?). apply Hn. exists c'. split; [by right|done].
    + intros n Hn. cbn. rewrite lookup_insert_ne by (intros E; by apply (Hni' _ Hn)).
      apply Hfresh. destruct Hn as (c'&?&?). exists c'. split; [by right|done].
Qed.

    Lemma starts_app m l l' : starts m (l ++ l') = starts m l + starts m l'.
    Proof. unfold starts. by rewrite filter_app, app_length. Qed.
    Lemma starts_nodup m l : NoDup l.*1 → starts m l ≤ 1 ∧ (starts m l = 1 → ∃ e, (m, e) ∈ l).
    Proof.
      unfold starts. induction l as [|[x e] l IH]; [cbn; lia|]. rewrite fmap_cons, NoDup_cons. intros [Hni Hnd].
      destruct (IH Hnd) as [I1 I2]. rewrite filter_cons. destruct (decide _) as [E|E]; cbn in E.
      - subst x. assert (filter (λ x, x.1 = m) l = []) as ->.
        { destruct (filter (λ x, x.1 = m) l) as [|[y e'] l'] eqn:Ef; [done|].
          assert (Hy : (y, e') ∈ filter (λ x, x.1 = m) l) by (rewrite Ef; left).
          apply elem_of_list_filter in Hy as [Hy1 Hy2]. cbn in Hy1. subst y.
          destruct Hni. apply elem_of_list_fmap. by exists (m, e'). }
        cbn. split; [lia|]. intros _. exists e. left.
      - split; [done|]. intros H. destruct (I2 H) as [e' He]. exists e'. by right.
    Qed.
    Lemma starts_single m n e : starts m [(n, e)] = if decide (m = n) then 1 else 0.
    Proof.
      unfold starts. rewrite filter_cons, filter_nil.
      destruct (decide _) as [E|E], (decide (m = n)) as [E'|E']; cbn in E; subst; try done; by destruct E.
    Qed.

Section script.
  Context (cs : list rcmd) (r : rscript).
  Context (Hr : declare_all cs new_run_script = Some r) (Hn : names_ok cs).

  Lemma rs_args_spec n : n ∈ rs_args r ↔ (∃ m, depends cs m n) ∧ ¬ declared cs n.
  Proof using Hr Hn.
    apply declare_all_spec in Hr as (I1&I2&_); [|apply Hn|by intros; apply lookup_empty].
    unfold rs_args. rewrite elem_of_difference, elem_of_dom, I1, I2. cbn. rewrite lookup_empty.
    split.
    - intros [[?|?] Hx]; [set_solver|]. split; [done|]. intros ?. apply Hx. auto.
    - intros [? Hx]. split; [by right|]. intros [[]|?]; done.
  Qed.
  Lemma sc_args_spec n : n ∈ sc_args (generate_run_script r) ↔ (∃ m, depends cs m n) ∧ ¬ declared cs n.
  Proof using Hr Hn. cbn. rewrite sort_strings_perm, elem_of_elements. apply rs_args_spec. Qed.
  Lemma sc_funcs_spec :
    NoDup (sc_funcs (generate_run_script r)) ∧ (∀ n, n ∈ sc_funcs (generate_run_script r) ↔ declared cs n).
  Proof using Hr Hn.
    apply declare_all_spec in Hr as (I1&I2&_); [|apply Hn|by intros; apply lookup_empty]. split; cbn.
    - rewrite sort_strings_perm. apply NoDup_elements.
    - intros n. rewrite sort_strings_perm, elem_of_elements, elem_of_dom, I2. cbn. rewrite lookup_empty.
      split; [intros [[]|?]; done|auto].
  Qed.
  Lemma functions_spec c : c ∈ cs →
    functions r !! FuncName (rc_name c) = Some (rc_name c, Rfunc (rc_deps c) (get_func_body (rc_cmd c))).
  Proof using Hr Hn.
    intros Hc. destruct sc_funcs_spec as [S1 S2].
    apply declare_all_spec in Hr as (_&_&I3&_); [|apply Hn|by intros; apply lookup_empty].
    destruct (I3 c Hc) as (b&Hb&->).
    unfold functions. revert S1. assert (Hin : rc_name c ∈ sc_funcs (generate_run_script r)) by (apply S2; by exists c).
    assert (Hall : ∀ n, n ∈ sc_funcs (generate_run_script r) → declared cs n) by (intros n; apply S2).
    generalize dependent (sc_funcs (generate_run_script r)). intros l _.
    induction l as [|n l IH] using rev_ind; [by intros ?%elem_of_nil|].
    intros Hin Hall (Hnd&Hdis&_)%NoDup_app. rewrite fold_left_app. cbn.
    destruct (decide (n = rc_name c)) as [->|Hne].
    - rewrite Hb. apply lookup_insert.
    - apply elem_of_app in Hin as [Hin|Hin]; [|apply elem_of_list_singleton in Hin; congruence].
      feed specialize IH; [done|intros m Hm; apply Hall; apply elem_of_app; by left|done|].
      destruct (rs_funcs r !! n) as [[f|]|]; [|done..]. rewrite lookup_insert_ne; [done|].
      intros E. apply Hne. apply Hn; [|by exists c|done]. apply Hall, elem_of_app. right. left.
  Qed.

  Lemma depends_deps c d : c ∈ cs → depends cs (rc_name c) d → d ∈ rc_deps c.
  Proof using Hn.
    intros Hc (c'&Hc'&Heq&Hd). assert (c' = c) as ->; [|done]. destruct Hn as [Hnd _].
    clear -Hnd Hc Hc' Heq. induction cs as [|x l IH]; [by apply elem_of_nil in Hc|].
    rewrite fmap_cons in Hnd. apply NoDup_cons in Hnd as [Hx Hnd].
    apply elem_of_cons in Hc as [->|Hc], Hc' as [->|Hc']; [done|..|by apply IH].
    - destruct Hx. rewrite <-Heq. by apply elem_of_list_fmap_1.
    - destruct Hx. rewrite Heq. by apply elem_of_list_fmap_1.
  Qed.

  (** A missing variable. *)
  Lemma run_sh_missing fuel body env a :
    (∃ m, depends cs m a) → ¬ declared cs a → EnvVar a ∉ env →
    run_sh fuel r body env = Some (Shell env [], false).
  Proof using Hr Hn.
    intros H1 H2 H3. unfold run_sh. assert (forallb (λ a, bool_decide (EnvVar a ∈ env)) (sc_args (generate_run_script r)) = false) as ->; [|done].
    apply not_true_iff_false. rewrite forallb_forall. intros Hall.
    specialize (Hall a). rewrite bool_decide_false in Hall by done. enough (false = true) by done.
    apply Hall. apply elem_of_list_In. by apply sc_args_spec.
  Qed.

  Definition args_set (env : gset string) : Prop := ∀ a m, depends cs m a → ¬ declared cs a → EnvVar a ∈ env.
  Lemma run_sh_set fuel body env :
    args_set env → run_sh fuel r body env =
      match call_all fuel (functions r) body (sc_funcs (generate_run_script r)) (Shell env []) with
      | None => None | Some s => Some (s, true) end.
  Proof using Hr Hn.
    intros Ha. unfold run_sh. assert (forallb (λ a, bool_decide (EnvVar a ∈ env)) (sc_args (generate_run_script r)) = true) as ->; [|done].
    apply forallb_forall. intros a Hin. apply elem_of_list_In, sc_args_spec in Hin as [[m Hm] Hd].
    apply bool_decide_true. by eapply Ha.
  Qed.

  (** ** No process depends on another *)
  Lemma get_deps_set f t body ds s : (∀ d, d ∈ ds → EnvVar d ∈ sh_env s) → get_deps (call f t body) ds s = Some (s, true).
  Proof.
    induction ds as [|d ds IH]; intros Hall; [done|]. cbn. rewrite bool_decide_true by (apply Hall; left).
    apply IH. intros x Hx. apply Hall. by right.
  Qed.
  Lemma run_independent fuel body env :
    args_set env → keeps_vars body → (∀ n d, depends cs n d → ¬ declared cs d) → 0 < fuel →
    ∃ s, run_sh fuel r body env = Some (s, true) ∧
      (sh_log s).*1 = sc_funcs (generate_run_script r) ∧ deps_first cs (sh_log s).
  Proof using Hr Hn.
    intros Ha Hk Hi Hf. rewrite run_sh_set by done. destruct sc_funcs_spec as [_ S2].
    assert (Hall : ∀ n, n ∈ sc_funcs (generate_run_script r) → declared cs n) by (intros n; apply S2).
    clear S2. generalize dependent (sc_funcs (generate_run_script r)). intros l Hall.
    assert (∀ s, args_set (sh_env s) → deps_first cs (sh_log s) →
      ∃ s', call_all fuel (functions r) body l s = Some s' ∧ (sh_log s').*1 = (sh_log s).*1 ++ l ∧ deps_first cs (sh_log s')) as Hgo.
    { induction l as [|n l IH]; intros s Hs Hdf; cbn [call_all].
      { exists s. rewrite app_nil_r. done. }
      destruct (Hall n) as (c&Hc&<-); [left|]. destruct fuel as [|fuel']; [lia|].
      cbn [call]. rewrite functions_spec by done. cbn [rf_deps]. rewrite get_deps_set.
      2:{ intros d Hd. eapply (Hs d (rc_name c)); [by exists c|]. eapply Hi. by exists c. }
      specialize (Hk (rc_name c) (sh_env s)). destruct (body (rc_name c) (sh_env s)) as [env' ok] eqn:Eb. cbn in Hk.
      assert (∃ b, (if ok then Some (Shell env' (sh_log s ++ [(rc_name c, sh_env s)]), bool_decide (EnvVar (rc_name c) ∈ env'))
              else Some (Shell env' (sh_log s ++ [(rc_name c, sh_env s)]), false)) = Some (Shell env' (sh_log s ++ [(rc_name c, sh_env s)]), b)) as [b ->].
      { destruct ok; eauto. }
      destruct (IH (λ n Hn, Hall n (elem_of_list_further _ _ _ Hn)) (Shell env' (sh_log s ++ [(rc_name c, sh_env s)]))) as (s'&H1&H2&H3).
      - intros a m Hd Hnd. cbn. apply Hk. by eapply Hs.
      - cbn. intros m e [Hin|Hin]%elem_of_app; [by apply Hdf|]. apply elem_of_list_singleton in Hin as [= -> ->].
        split; [by exists c|]. intros d Hd. eapply Hs; [done|]. by eapply Hi.
      - exists s'. split_and!; [done| |done]. rewrite H2. cbn. rewrite fmap_app, <-app_assoc. done. }
    destruct (Hgo (Shell env [])) as (s'&->&H2&H3); [done|by intros n e ?%elem_of_nil|]. eauto.
  Qed.

  (** ** Dependencies between processes *)
  Section succeed.
    Context (body : bodies) (Hb : bodies_succeed body).
    Context (fuel : nat) (rank : string → nat).
    Context (Hrk : ∀ n d, depends cs n d → declared cs d → rank d < rank n).

    (** What was started along the way: each started once, when its variable was not set. *)
    Definition along (s s' : shell) (l : list (string * gset string)) (bound : nat) : Prop :=
      sh_env s ⊆ sh_env s' ∧ deps_first cs l ∧ NoDup l.*1 ∧
      ∀ m e, (m, e) ∈ l → EnvVar m ∉ sh_env s ∧ EnvVar m ∈ sh_env s' ∧ rank m < bound ∧ ∃ n, depends cs n m.

    Lemma along_nil s b : along s s [] b.
    Proof. split_and!; [done|by intros ?? ?%elem_of_nil|constructor|by intros ?? ?%elem_of_nil]. Qed.
    Lemma along_app s s' s'' l l' b :
      along s s' l b → along s' s'' l' b → along s s'' (l ++ l') b.
    Proof.
      intros (A1&A2&A3&A4) (B1&B2&B3&B4). split_and!.
      - by etrans.
      - intros m e [?|?]%elem_of_app; eauto.
      - rewrite fmap_app. apply NoDup_app. split_and!; [done| |done].
        intros m ([m1 e1]&->&H1)%elem_of_list_fmap ([m2 e2]&Heq&H2)%elem_of_list_fmap. cbn in Heq. subst m2.
        apply A4 in H1 as (_&?&_). apply B4 in H2 as (?&_). done.
      - intros m e [H1|H1]%elem_of_app.
        + apply A4 in H1 as (?&?&?&?). split_and!; auto.
        + apply B4 in H1 as (?&?&?&?). split_and!; auto.
    Qed.

    Lemma call_succeeds f n s :
      declared cs n → rank n < f → args_set (sh_env s) →
      ∃ s' l e, call f (functions r) body (FuncName n) s = Some (s', true) ∧
        sh_log s' = sh_log s ++ l ++ [(n, e)] ∧ EnvVar n ∈ sh_env s' ∧ sh_env s ⊆ sh_env s' ∧
        (∀ d, depends cs n d → EnvVar d ∈ e) ∧
        ∃ s1, along s s1 l (rank n) ∧ sh_env s1 = e ∧ e ⊆ sh_env s'.
    Proof using Hr Hn Hb Hrk.
      revert n s. induction f as [|f IH]; intros n s (c&Hc&<-) Hf Ha; [lia|].
      cbn [call]. rewrite functions_spec by done. cbn [rf_deps].
      assert (Hdeps : ∀ ds s, (∀ d, d ∈ ds → d ∈ rc_deps c) → args_set (sh_env s) →
        ∃ s1 l, get_deps (call f (functions r) body) ds s = Some (s1, true) ∧ sh_log s1 = sh_log s ++ l ∧
          along s s1 l (rank (rc_name c)) ∧ ∀ d, d ∈ ds → EnvVar d ∈ sh_env s1).
      { clear s Ha. intros ds. induction ds as [|d ds IHd]; intros s Hsub Ha.
        { exists s, []. rewrite app_nil_r. split_and!; [done..|apply along_nil|by intros ? ?%elem_of_nil]. }
        assert (Hdd : depends cs (rc_name c) d) by (exists c; split_and!; [done..|apply Hsub; left]).
        cbn [get_deps]. destruct (bool_decide (EnvVar d ∈ sh_env s)) eqn:Ed.
        - apply bool_decide_eq_true in Ed. destruct (IHd s) as (s1&l&H1&H2&H3&H4); [intros x Hx; apply Hsub; by right|done|].
          exists s1, l. split_and!; [done..|]. intros x [->|Hx]%elem_of_cons; [|by apply H4]. by apply H3.
        - apply bool_decide_eq_false in Ed.
          assert (declared cs d) as Hd.
          { destruct (decide (d ∈ rc_name <$> cs)) as [(c'&->&Hc')%elem_of_list_fmap|Hnd]; [by exists c'|].
            destruct Ed. apply (Ha d (rc_name c) Hdd). intros (c'&Hc'&<-). apply Hnd. by apply elem_of_list_fmap_1. }
          pose proof (Hrk _ _ Hdd Hd) as Hlt.
          destruct (IH d s Hd ltac:(lia) Ha) as (s2&l2&e2&->&L2&V2&M2&D2&s1'&A2&<-&M3).
          destruct (IHd s2) as (s1&l&->&L1&A1&V1); [intros x Hx; apply Hsub; by right|intros a m ? ?; apply M2; by eapply Ha|].
          exists s1, ((l2 ++ [(d, sh_env s1')]) ++ l). split_and!; [done| | |].
          + rewrite L1, L2, <-!app_assoc. done.
          + apply along_app with s2; [|done]. destruct A2 as (B1&B2&B3&B4). split_and!.
            * done.
            * intros m e [?|Hin]%elem_of_app; [by apply B2|]. apply elem_of_list_singleton in Hin as [= -> ->]. done.
            * rewrite fmap_app. apply NoDup_app. split_and!; [done| |apply NoDup_singleton].
              cbn. intros m ([m1 e1]&->&H1)%elem_of_list_fmap Hin. apply elem_of_list_singleton in Hin. cbn in Hin. subst.
              apply B4 in H1 as (_&_&?&_). lia.
            * intros m e [Hin|Hin]%elem_of_app.
              -- apply B4 in Hin as (?&?&?&?). split_and!; [done|by apply M3|lia|done].
              -- apply elem_of_list_singleton in Hin as [= -> ->]. split_and!; [done..|]. by exists (rc_name c).
          + intros x [->|Hx]%elem_of_cons; [|by apply V1]. by apply A1. }
      destruct (Hdeps (rc_deps c) s) as (s1&l&->&L1&A1&V1); [done|done|].
      specialize (Hb (rc_name c) (sh_env s1)) as (B1&B2&B3).
      destruct (body (rc_name c) (sh_env s1)) as [env' ok]. cbn in B1, B2, B3. subst ok.
      rewrite bool_decide_true by done. eexists _, l, (sh_env s1). split_and!; [done|..].
      - cbn. by rewrite L1, <-app_assoc.
      - done.
      - cbn. etrans; [apply A1|done].
      - intros d Hd. apply V1. by apply depends_deps.
      - exists s1. done.
    Qed.

    Lemma run_dependent env :
      args_set env → (∀ n, declared cs n → rank n < fuel) →
      ∃ s, run_sh fuel r body env = Some (s, true) ∧ deps_first cs (sh_log s) ∧
        (∀ n, declared cs n → 1 ≤ starts n (sh_log s) ≤ 2 ∧ EnvVar n ∈ sh_env s ∧
           (starts n (sh_log s) = 2 → (∃ m, depends cs m n) ∧ EnvVar n ∉ env)).
    Proof using Hr Hn Hb Hrk.
      intros Ha Hf. rewrite run_sh_set by done. destruct sc_funcs_spec as [S1 S2].
      assert (Hall : ∀ n, n ∈ sc_funcs (generate_run_script r) → declared cs n) by (intros n; apply S2).
      assert (∀ l done_ s (dep : string → nat), NoDup (done_ ++ l) → (∀ n, n ∈ l → declared cs n) →
        env ⊆ sh_env s → deps_first cs (sh_log s) →
        (∀ m, starts m (sh_log s) = dep m + (if decide (m ∈ done_) then 1 else 0)) →
        (∀ m, m ∈ done_ → EnvVar m ∈ sh_env s) →
        (∀ m, dep m ≤ 1 ∧ (dep m = 1 → EnvVar m ∈ sh_env s ∧ EnvVar m ∉ env ∧ ∃ n, depends cs n m)) →
        ∃ s' dep', call_all fuel (functions r) body l s = Some s' ∧ deps_first cs (sh_log s') ∧
          (∀ m, starts m (sh_log s') = dep' m + (if decide (m ∈ done_ ++ l) then 1 else 0)) ∧
          (∀ m, m ∈ done_ ++ l → EnvVar m ∈ sh_env s') ∧
          (∀ m, dep' m ≤ 1 ∧ (dep' m = 1 → EnvVar m ∉ env ∧ ∃ n, depends cs n m))) as Hgo.
      { clear S1 S2 Hall. intros l. induction l as [|n l IH]; intros done_ s dep Hnd Hall He Hdf Hst Hdv Hdp; cbn [call_all].
        { exists s, dep. rewrite app_nil_r. split_and!; [done..|]. intros m. destruct (Hdp m) as [? Hx]. split; [done|].
          intros HE. destruct (Hx HE) as (_&?&?). done. }
        assert (Hdn : declared cs n) by (apply Hall; left).
        destruct (call_succeeds fuel n s Hdn (Hf _ Hdn)) as (s2&l2&e2&->&L2&V2&M2&D2&s1&A2&Es1&M3).
        { intros a m H1 H2. apply He. by eapply Ha. }
        destruct A2 as (B1&B2&B3&B4).
        assert (Hnd' : n ∉ done_).
        { apply NoDup_app in Hnd as (_&Hx&_). intros Hin. apply (Hx n Hin). left. }
        destruct (IH (done_ ++ [n]) s2 (λ m, dep m + starts m l2)) as (s'&dep'&H1&H2&H3&H4&H5).
        - by rewrite <-app_assoc.
        - intros x Hx. apply Hall. by right.
        - by etrans.
        - rewrite L2. intros m e [Hin|[Hin|Hin]%elem_of_app]%elem_of_app; [by apply Hdf|by apply B2|].
          apply elem_of_list_singleton in Hin as [= -> ->]. done.
        - intros m. rewrite L2, !starts_app, Hst, starts_single.
          assert ((if decide (m ∈ done_ ++ [n]) then 1 else 0) = (if decide (m ∈ done_) then 1 else 0) + if decide (m = n) then 1 else 0) as ->.
          { destruct (decide (m = n)) as [->|Hne].
            - rewrite decide_True by (apply elem_of_app; right; left). by rewrite decide_False.
            - destruct (decide (m ∈ done_)).
              + by rewrite decide_True by (apply elem_of_app; by left).
              + rewrite decide_False; [done|]. intros [?|Hx]%elem_of_app; [done|]. by apply elem_of_list_singleton in Hx. }
          lia.
        - intros m [?|Hx]%elem_of_app; [by apply M2, Hdv|]. apply elem_of_list_singleton in Hx as ->. done.
        - intros m. destruct (Hdp m) as [P1 P2]. destruct (starts_nodup m l2 B3) as [Q1 Q2].
          destruct (decide (starts m l2 = 1)) as [E1|E1].
          + destruct (Q2 E1) as [e He']. apply B4 in He' as (W1&W2&W3&W4).
            assert (dep m ≠ 1) by (intros E; by destruct (P2 E) as (?&_)).
            split; [lia|]. intros _. split_and!; [|set_solver|done]. apply M3. by rewrite <-Es1.
          + split; [lia|]. intros E. destruct P2 as (?&?&?); [lia|]. split_and!; [by apply M2|done..].
        - exists s', dep'. rewrite <-app_assoc in H3, H4. done. }
      destruct (Hgo (sc_funcs (generate_run_script r)) [] (Shell env []) (λ _, 0)) as (s'&dep'&->&H2&H3&H4&H5).
      - done.
      - done.
      - done.
      - by intros ?? ?%elem_of_nil.
      - intros m. rewrite decide_False; [done|]. by intros ?%elem_of_nil.
      - by intros ? ?%elem_of_nil.
      - intros m. split; [lia|done].
      - exists s'. split_and!; [done..|]. intros n Hd. apply S2 in Hd.
        specialize (H3 n). rewrite decide_True in H3 by done. destruct (H5 n) as [P1 P2].
        split; [lia|]. split; [by apply H4|]. intros E. destruct P2; [lia|]. done.
    Qed.
  End succeed.
End script.
