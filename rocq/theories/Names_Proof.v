From Coq Require Import ZifyBool ZifyNat ZifyN Lia.
From Verif Require Import Names_Model Names_Spec.

Lemma kept_underscore : kept underscore = false.
Proof. reflexivity. Qed.

Lemma legal_kept c : legal c = kept c || bool_decide (c = underscore).
Proof. reflexivity. Qed.

Lemma kept_not_underscore c : kept c = true → c ≠ underscore.
Proof. intros H ->. done. Qed.

Lemma replace_legal b s c : c ∈ replace_runs b s → legal c = true.
Proof.
  revert b. induction s as [|x s IH]; intros b; simpl; [by intros ?%elem_of_nil|].
  destruct (kept x) eqn:E.
  - intros [->|H]%elem_of_cons; [by rewrite legal_kept, E|eauto].
  - destruct b; [eauto|]. intros [->|H]%elem_of_cons; [done|eauto].
Qed.

Lemma strip_suffix s : ∃ p, s = p ++ strip_digits s ∧ Forall (λ c, is_digit c = true) p.
Proof.
  induction s as [|c s [p [IH1 IH2]]]; simpl; [by exists []|].
  destruct (is_digit c) eqn:E.
  - exists (c :: p). split; [simpl; by f_equal|]. by constructor.
  - exists []. split; [done|constructor].
Qed.

Lemma strip_start s : digit_free_start (strip_digits s).
Proof.
  induction s as [|c s IH]; simpl; [done|]. destruct (is_digit c) eqn:E; [done|].
  intros c' r [= <- <-]. done.
Qed.

Lemma strip_id s : digit_free_start s → strip_digits s = s.
Proof. destruct s as [|c s]; [done|]. simpl. intros H. by rewrite (H c s eq_refl). Qed.

(** Head of a run-replacement that continues a run is kept. *)
Lemma replace_true_head s c r : replace_runs true s = c :: r → kept c = true.
Proof.
  induction s as [|x s IH]; simpl; [done|]. destruct (kept x) eqn:E; [|done]. by intros [= <- _].
Qed.

Lemma replace_no_double b s : no_double (replace_runs b s).
Proof.
  revert b. induction s as [|x s IH]; intros b; simpl; [done|].
  destruct (kept x) eqn:E.
  - simpl. split; [|apply IH]. destruct (replace_runs false s); [done|].
    intros [-> _]. done.
  - destruct b; [apply IH|]. simpl. split; [|apply IH].
    destruct (replace_runs true s) as [|c r] eqn:Er; [done|].
    apply replace_true_head in Er. intros [_ ->]. done.
Qed.

Lemma no_double_tail a s : no_double (a :: s) → no_double s.
Proof. simpl. tauto. Qed.
Lemma no_double_app p s : no_double (p ++ s) → no_double s.
Proof. induction p as [|a p IH]; [done|]. intros H. apply IH. by apply no_double_tail in H. Qed.

(** On legal strings without double underscores, replacing runs is the identity. *)
Lemma replace_id s : Forall (λ c, legal c = true) s → no_double s → replace_runs false s = s.
Proof.
  intros Hl. assert (∀ b, (b = true → ∀ c r, s = c :: r → c ≠ underscore) → no_double s →
    replace_runs b s = s) as H; [|by apply (H false)].
  induction Hl as [|c s Hc Hs IH]; intros b Hb Hnd; [done|]. simpl.
  rewrite legal_kept in Hc. destruct (kept c) eqn:E.
  - f_equal. apply IH; [done|]. by apply no_double_tail in Hnd.
  - simpl in Hc. apply bool_decide_eq_true in Hc as ->. destruct b.
    + by destruct (Hb eq_refl underscore s eq_refl).
    + f_equal. apply IH; [|by apply no_double_tail in Hnd].
      intros _ c r -> ->. simpl in Hnd. tauto.
Qed.

Lemma clean_legal s c : c ∈ clean_name s → legal c = true.
Proof.
  unfold clean_name. destruct (strip_suffix (replace_runs false s)) as (p&Hp&_).
  intros H. apply (replace_legal false s). rewrite Hp. apply elem_of_app. by right.
Qed.
Lemma clean_start s : digit_free_start (clean_name s).
Proof. apply strip_start. Qed.
Lemma clean_no_double s : no_double (clean_name s).
Proof.
  unfold clean_name. destruct (strip_suffix (replace_runs false s)) as (p&Hp&_).
  eapply no_double_app. rewrite <- Hp. apply replace_no_double.
Qed.
Lemma clean_id s :
  (∀ c, c ∈ s → legal c = true) → digit_free_start s → no_double s → clean_name s = s.
Proof.
  intros H1 H2 H3. unfold clean_name. rewrite replace_id; [by apply strip_id| |done].
  by apply Forall_forall.
Qed.
Lemma clean_idemp s : clean_name (clean_name s) = clean_name s.
Proof. apply clean_id; [apply clean_legal|apply clean_start|apply clean_no_double]. Qed.

(** Letters, digits and spaces survive in order, except for stripped leading digits. *)
Lemma replace_kept b s : List.filter kept (replace_runs b s) = List.filter kept s.
Proof.
  revert b. induction s as [|c s IH]; intros b; simpl; [done|]. destruct (kept c) eqn:E; simpl.
  - rewrite E. by f_equal.
  - destruct b; [apply IH|]. simpl. apply IH.
Qed.
Lemma clean_content s :
  ∃ p, List.filter kept s = p ++ List.filter kept (clean_name s) ∧ Forall (λ c, is_digit c = true) p.
Proof.
  destruct (strip_suffix (replace_runs false s)) as (p&Hp&Hd). exists p. split; [|done].
  unfold clean_name. rewrite <- (replace_kept false s). rewrite Hp at 1. rewrite List.filter_app.
  f_equal. clear Hp. induction Hd as [|c p Hc Hd IH]; [done|]. simpl.
  assert (kept c = true) as ->; [|by f_equal]. unfold kept. rewrite Hc. by rewrite !orb_true_r.
Qed.

(** ** EnvVar *)
Lemma ascii_all (P : ascii → bool) :
  forallb (λ n, P (ascii_of_nat n)) (seq 0 256) = true → ∀ c, P c = true.
Proof.
  intros H c. rewrite forallb_forall in H. rewrite <- (ascii_nat_embedding c). apply H.
  apply in_seq. split; [lia|]. apply nat_ascii_bounded.
Qed.

Lemma upper_facts c :
  legal c = true →
  legal (to_upper_c c) = true ∧ is_lower (to_upper_c c) = false ∧
  to_upper_c (to_upper_c c) = to_upper_c c ∧ is_digit (to_upper_c c) = is_digit c ∧
  (to_upper_c c = underscore ↔ c = underscore).
Proof.
  intros Hl.
  assert (implb (legal c) (legal (to_upper_c c) && negb (is_lower (to_upper_c c)) &&
    bool_decide (to_upper_c (to_upper_c c) = to_upper_c c) &&
    Bool.eqb (is_digit (to_upper_c c)) (is_digit c) &&
    Bool.eqb (bool_decide (to_upper_c c = underscore)) (bool_decide (c = underscore))) = true) as H.
  { clear Hl.
    revert c. apply ascii_all. vm_compute. reflexivity. }
  rewrite Hl in H. simpl in H. repeat (apply andb_true_iff in H as [H ?]).
  split_and!; try done.
  - by apply negb_true_iff.
  - by apply bool_decide_eq_true in H2.
  - by apply Bool.eqb_prop.
  - apply Bool.eqb_prop in H0. revert H0. repeat case_bool_decide; naive_solver.
Qed.

Lemma env_legal s c : c ∈ env_var s → legal c = true ∧ is_lower c = false.
Proof.
  unfold env_var. rewrite elem_of_list_fmap. intros (x&->&Hx). apply clean_legal in Hx.
  destruct (upper_facts x Hx) as (?&?&_). done.
Qed.

Lemma upper_no_double s : (∀ c, c ∈ s → legal c = true) → no_double s → no_double (to_upper_c <$> s).
Proof.
  induction s as [|a s IH]; intros Hl Hnd; [done|]. simpl in *. destruct Hnd as [H1 H2].
  split; [|apply IH; [set_solver|done]]. destruct s as [|b s]; [done|]. simpl.
  destruct (upper_facts a) as (_&_&_&_&Ea); [set_solver|].
  destruct (upper_facts b) as (_&_&_&_&Eb); [set_solver|]. tauto.
Qed.

Lemma env_start s : digit_free_start (env_var s).
Proof.
  unfold env_var. pose proof (clean_start s) as H. pose proof (clean_legal s) as Hl.
  destruct (clean_name s) as [|c r] eqn:E; [done|]. intros c' r' [= <- <-].
  destruct (upper_facts c) as (_&_&_&->&_); [apply Hl; set_solver|]. by apply (H c r).
Qed.

Lemma env_idemp s : env_var (env_var s) = env_var s.
Proof.
  assert (clean_name (env_var s) = env_var s) as E.
  { apply clean_id.
    - intros c Hc. by apply env_legal in Hc as [? _].
    - apply env_start.
    - apply upper_no_double; [apply clean_legal|apply clean_no_double]. }
  unfold env_var at 1. rewrite E. unfold env_var. rewrite <- list_fmap_compose.
  apply list_fmap_ext. intros i x Hx. simpl. apply elem_of_list_lookup_2 in Hx.
  apply clean_legal in Hx. destruct (upper_facts x Hx) as (_&_&->&_). done.
Qed.

Lemma env_clean s : env_var (clean_name s) = env_var s.
Proof. unfold env_var. by rewrite clean_idemp. Qed.

(** ** ReplaceSuffix *)
Lemma cut_suffix_spec s suf : match cut_suffix s suf with
  | Some b => s = b ++ suf
  | None => ∀ b, s ≠ b ++ suf end.
Proof.
  unfold cut_suffix. case_bool_decide as H.
  - destruct H as [_ Hd]. by rewrite <- Hd at 2; rewrite take_drop.
  - intros b ->. apply H. split; [rewrite app_length; lia|].
    rewrite app_length. replace (length b + length suf - length suf) with (length b) by lia.
    by rewrite drop_app.
Qed.
Lemma replace_suffix_spec s suf rep :
  (∀ b, s = b ++ suf → replace_suffix s suf rep = b ++ rep) ∧
  ((∀ b, s ≠ b ++ suf) → replace_suffix s suf rep = s ++ ["."%char] ++ rep).
Proof.
  unfold replace_suffix. pose proof (cut_suffix_spec s suf) as H.
  destruct (cut_suffix s suf) as [b0|] eqn:E.
  - split; [|intros Hn; by destruct (Hn b0)]. intros b Hb.
    assert (b0 = b) as ->; [|done]. rewrite H in Hb. by apply app_inj_2 in Hb as [? _].
  - split; [intros b Hb; by destruct (H b)|done].
Qed.

(** ** Lines *)
Lemma split_nonempty s : split_lines s ≠ [].
Proof. destruct s; simpl; [done|]. case_bool_decide; [done|]. by destruct (split_lines s). Qed.

Lemma split_no_newline s l : l ∈ split_lines s → newline ∉ l.
Proof.
  revert l. induction s as [|c s IH]; intros l; simpl.
  - rewrite elem_of_list_singleton. intros ->. by apply not_elem_of_nil.
  - case_bool_decide as Hc.
    + intros [->|H]%elem_of_cons; [by apply not_elem_of_nil|by apply IH].
    + destruct (split_lines s) as [|l0 ls] eqn:E; [by destruct (split_nonempty s)|].
      intros [->|H]%elem_of_cons.
      * rewrite not_elem_of_cons. split; [done|]. apply IH. by left.
      * apply IH. by right.
Qed.

Lemma join_split s : join_lines (split_lines s) = s.
Proof.
  induction s as [|c s IH]; [done|]. simpl. case_bool_decide as Hc.
  - subst. simpl. destruct (split_lines s) eqn:E; [by destruct (split_nonempty s)|]. by rewrite IH.
  - destruct (split_lines s) as [|l ls] eqn:E; [by destruct (split_nonempty s)|].
    simpl in *. destruct ls; rewrite <- IH; done.
Qed.

Lemma split_app_newline l s : newline ∉ l → split_lines (l ++ newline :: s) = l :: split_lines s.
Proof.
  induction l as [|c l IH]; intros Hl; simpl.
  - done.
  - apply not_elem_of_cons in Hl as [Hc Hl]. rewrite bool_decide_false by done. by rewrite IH.
Qed.
Lemma split_single l : newline ∉ l → split_lines l = [l].
Proof.
  induction l as [|c l IH]; intros Hl; simpl; [done|].
  apply not_elem_of_cons in Hl as [Hc Hl]. rewrite bool_decide_false by done. by rewrite IH.
Qed.
Lemma split_join ls : ls ≠ [] → Forall (λ l, newline ∉ l) ls → split_lines (join_lines ls) = ls.
Proof.
  intros Hne Hf. induction Hf as [|l ls Hl Hf IH]; [done|].
  destruct ls as [|l2 ls]; simpl; [by apply split_single|].
  rewrite split_app_newline by done. f_equal. by apply IH.
Qed.

Lemma indent_lines s amount :
  split_lines (indent s amount) = (λ l, replicate amount space ++ l) <$> split_lines s.
Proof.
  unfold indent. apply split_join.
  - destruct (split_lines s) eqn:E; [by destruct (split_nonempty s)|done].
  - apply Forall_forall. intros l Hl. apply elem_of_list_fmap in Hl as (l0&->&Hl0).
    apply split_no_newline in Hl0. rewrite not_elem_of_app. split; [|done].
    intros [H _]%elem_of_replicate. done.
Qed.

Lemma indent_zero s : indent s 0 = s.
Proof.
  unfold indent. rewrite <- (join_split s) at 2. f_equal.
  rewrite <- (list_fmap_id (split_lines s)) at 2. apply list_fmap_ext. done.
Qed.

Lemma indent_add s a b : indent (indent s a) b = indent s (b + a).
Proof.
  unfold indent at 1. rewrite indent_lines. unfold indent. f_equal. rewrite <- list_fmap_compose.
  apply list_fmap_ext. intros i l _. simpl. by rewrite replicate_add, app_assoc.
Qed.

(** ** Reindent *)
Lemma min_indent_le cap ls : min_indent cap ls ≤ cap.
Proof.
  unfold min_indent. revert cap. induction ls as [|l ls IH]; intros cap; simpl; [done|].
  destruct l; [apply IH|]. etrans; [apply IH|]. apply Nat.le_min_l.
Qed.
Lemma min_indent_lb cap ls l : l ∈ ls → l ≠ [] → min_indent cap ls ≤ leading_spaces l.
Proof.
  unfold min_indent. revert cap. induction ls as [|x ls IH]; intros cap Hin Hne; simpl; [by apply elem_of_nil in Hin|].
  apply elem_of_cons in Hin as [<-|Hin].
  - destruct l as [|c l]; [done|]. etrans; [apply (min_indent_le _ ls)|]. apply Nat.le_min_r.
  - destruct x; by apply IH.
Qed.
Lemma min_indent_attained cap ls :
  min_indent cap ls = cap ∨ ∃ l, l ∈ ls ∧ l ≠ [] ∧ leading_spaces l = min_indent cap ls.
Proof.
  unfold min_indent. revert cap. induction ls as [|x ls IH]; intros cap; simpl; [by left|].
  destruct x as [|c x].
  - destruct (IH cap) as [H|(l&?&?&?)]; [by left|right]. exists l. set_solver.
  - destruct (IH (Nat.min cap (leading_spaces (c :: x)))) as [H|(l&?&?&?)].
    + rewrite H. destruct (Nat.min_spec cap (leading_spaces (c :: x))) as [[_ ->]|[_ ->]]; [by left|].
      right. exists (c :: x). split_and!; [set_solver|done|done].
    + right. exists l. set_solver.
Qed.

Lemma leading_drop k l : k ≤ leading_spaces l → l = replicate k space ++ drop k l ∧
  leading_spaces (drop k l) = leading_spaces l - k.
Proof.
  revert l. induction k as [|k IH]; intros l H; [by rewrite Nat.sub_0_r|].
  destruct l as [|c l]; simpl in *; [lia|]. destruct (is_space c) eqn:E; [|lia].
  destruct (IH l) as [H1 H2]; [lia|]. split; [|simpl; rewrite H2; lia].
  f_equal; [|done]. unfold is_space in E. apply N.eqb_eq in E. unfold code in E.
  rewrite <- (ascii_N_embedding c), E. done.
Qed.

Lemma leading_replicate a l : leading_spaces (replicate a space ++ l) = a + leading_spaces l.
Proof. induction a as [|a IH]; [done|]. simpl. by rewrite IH. Qed.

Lemma normalize_no_newline l : newline ∉ l → newline ∉ normalize_line l.
Proof.
  unfold normalize_line. destruct (blank l); [intros _; apply not_elem_of_nil|].
  intros Hl. unfold expand_tabs. intros H. apply elem_of_list_In, in_flat_map in H as (c&Hc&Hn).
  apply elem_of_list_In in Hc, Hn. case_bool_decide.
  - apply elem_of_replicate in Hn as [Hn _]. done.
  - apply elem_of_list_singleton in Hn as <-. done.
Qed.

(** All non-blank lines move by one common amount; if some line reaches less than the cap, the
    least-indented line ends up at exactly [amount]. *)
Lemma reindent_lines cap s amount :
  ∃ cur, 
    split_lines (reindent_cap cap s amount) =
      (λ l, match normalize_line l with [] => [] | l' => replicate amount space ++ drop cur l' end) <$> split_lines s
    ∧ (∀ l, l ∈ split_lines s → normalize_line l ≠ [] →
         cur ≤ leading_spaces (normalize_line l) ∧
         normalize_line l = replicate cur space ++ drop cur (normalize_line l))
    ∧ (cur = cap ∨ ∃ l, l ∈ split_lines s ∧ normalize_line l ≠ [] ∧ leading_spaces (normalize_line l) = cur).
Proof.
  set (ls := normalize_line <$> split_lines s). exists (min_indent cap ls). split_and!.
  - unfold reindent_cap. fold ls. rewrite split_join.
    + unfold ls. rewrite <- list_fmap_compose. apply list_fmap_ext. intros i l _. simpl.
      by destruct (normalize_line l).
    + unfold ls. destruct (split_lines s) eqn:E; [by destruct (split_nonempty s)|done].
    + apply Forall_forall. intros l Hl. apply elem_of_list_fmap in Hl as (l0&->&Hl0).
      unfold ls in Hl0. apply elem_of_list_fmap in Hl0 as (l1&->&Hl1).
      apply split_no_newline, normalize_no_newline in Hl1.
      destruct (normalize_line l1) as [|c r] eqn:E; [apply not_elem_of_nil|].
      rewrite not_elem_of_app. split; [intros [H _]%elem_of_replicate; done|].
      intros H. apply Hl1. rewrite <- (take_drop (min_indent cap (normalize_line <$> split_lines s)) (c :: r)).
      apply elem_of_app. by right.
  - intros l Hl Hne. assert (normalize_line l ∈ ls) as Hin by (by apply elem_of_list_fmap_1).
    pose proof (min_indent_lb cap ls _ Hin Hne) as Hle. split; [done|]. by apply leading_drop.
  - destruct (min_indent_attained cap ls) as [H|(l&Hl&Hne&Hld)]; [by left|right].
    unfold ls in Hl. apply elem_of_list_fmap in Hl as (l1&->&Hl1). by exists l1.
Qed.

Lemma expand_nonempty l : blank l = false → expand_tabs l ≠ [].
Proof. destruct l as [|c l]; [done|]. intros _. simpl. case_bool_decide; done. Qed.

Lemma reindent_shifts s amount : ∃ cur,
    Forall2 (λ l l', if blank l then l' = [] else shifted cur amount (expand_tabs l) l')
      (split_lines s) (split_lines (reindent s amount)) ∧
    (cur = N.to_nat 10000 ∨
     ∃ l, l ∈ split_lines s ∧ blank l = false ∧ leading_spaces (expand_tabs l) = cur).
Proof.
  unfold reindent. generalize (N.to_nat 10000). intros cap.
  destruct (reindent_lines cap s amount) as (cur&H1&H2&H3). exists cur. split.
  - rewrite H1. clear H1 H3. apply Forall2_fmap_r, Forall_Forall2_diag.
    apply Forall_forall. intros l Hl. specialize (H2 l Hl). unfold normalize_line in *. 
    destruct (blank l) eqn:E; [simpl; by rewrite E|]. simpl; rewrite E. pose proof (expand_nonempty l E) as Hne.
    destruct H2 as [_ H2]; [done|]. exists (drop cur (expand_tabs l)). split; [done|].
    by destruct (expand_tabs l).
  - destruct H3 as [?|(l&Hl&Hne&Hld)]; [by left|right]. exists l. unfold normalize_line in *.
    destruct (blank l) eqn:E; done.
Qed.
