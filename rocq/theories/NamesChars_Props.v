(** * C09 continued: the characters of generated names, spelled out *)
From Verif Require Import Names_Model Names_Spec Names_Proof.

Definition lower_letters : bytes := str "abcdefghijklmnopqrstuvwxyz".
Definition upper_letters : bytes := str "ABCDEFGHIJKLMNOPQRSTUVWXYZ".
Definition digits : bytes := str "0123456789".

Definition all_chars : list ascii := ascii_of_nat <$> seq 0 256.
Lemma all_chars_all c : c ∈ all_chars.
Proof.
  apply elem_of_list_fmap. exists (nat_of_ascii c). split; [symmetry; apply ascii_nat_embedding|]. apply elem_of_seq.
  pose proof (nat_ascii_bounded c). split; [apply Nat.le_0_l|done].
Qed.
Lemma by_cases (P : ascii → bool) : forallb P all_chars = true → ∀ c, P c = true.
Proof. intros H c. rewrite forallb_forall in H. apply H. apply elem_of_list_In, all_chars_all. Qed.

(** What may remain in a cleaned name, and what may not start it. *)
Theorem C09_alphabet :
  ∀ c, (legal c = true ↔ c ∈ lower_letters ++ upper_letters ++ digits ++ str " _") ∧
       (kept c = true ↔ c ∈ lower_letters ++ upper_letters ++ digits ++ str " ") ∧
       (is_digit c = true ↔ c ∈ digits) ∧ (is_lower c = true ↔ c ∈ lower_letters) ∧ (is_upper c = true ↔ c ∈ upper_letters) ∧
       (is_space c = true ↔ c = " "%char).
Proof.
  intros c. eapply bool_decide_eq_true_1. revert c. refine (by_cases (λ c, bool_decide _) _). vm_compute. reflexivity.
Qed.
Print Assumptions C09_alphabet.

(** An environment variable is the cleaned name with capital letters for small ones; a shell function name is
    the cleaned name with small letters for capital ones. *)
Definition translate (src dst : bytes) (c : ascii) : ascii :=
  match list_find (eq c) src with Some (i, _) => default c (dst !! i) | None => c end.
Theorem C09_case :
  ∀ s, env_var s = translate lower_letters upper_letters <$> clean_name s ∧
       func_name s = translate upper_letters lower_letters <$> clean_name s.
Proof.
  assert (∀ c, to_upper_c c = translate lower_letters upper_letters c ∧ to_lower_c c = translate upper_letters lower_letters c) as H.
  { intros c. eapply bool_decide_eq_true_1. revert c. refine (by_cases (λ c, bool_decide _) _). vm_compute. reflexivity. }
  intros s. split; apply list_fmap_ext; intros; apply H.
Qed.
Print Assumptions C09_case.

(** A shell function name is legal, has no capital letter, and depends on the cleaned name only. *)
Theorem C09_func_name :
  ∀ s, (∀ c, c ∈ func_name s → legal c = true ∧ c ∉ upper_letters) ∧
       digit_free_start (func_name s) ∧ func_name (func_name s) = func_name s ∧ func_name (clean_name s) = func_name s ∧
       env_var (func_name s) = env_var s ∧ func_name (env_var s) = func_name s.
Proof.
  assert (∀ c, (kept (to_lower_c c) = kept c ∧ kept (to_upper_c c) = kept c ∧ is_digit (to_lower_c c) = is_digit c ∧ is_digit (to_upper_c c) = is_digit c) ∧
    (legal c = true → legal (to_lower_c c) = true) ∧ to_lower_c c ∉ upper_letters ∧
    (to_lower_c (to_lower_c c) = to_lower_c c ∧ to_upper_c (to_lower_c c) = to_upper_c c ∧ to_lower_c (to_upper_c c) = to_lower_c c)) as H.
  { intros c. eapply bool_decide_eq_true_1. revert c. refine (by_cases (λ c, bool_decide _) _). vm_compute. reflexivity. }
  assert (to_lower_c underscore = underscore ∧ to_upper_c underscore = underscore) as [Hu1 Hu2] by done.
  assert (∀ (g : ascii → ascii), (∀ c, kept (g c) = kept c ∧ is_digit (g c) = is_digit c) → g underscore = underscore →
    ∀ s, clean_name (g <$> s) = g <$> clean_name s) as Hclean.
  { intros g Hg Hgu s. unfold clean_name.
    assert (∀ s, strip_digits (g <$> s) = g <$> strip_digits s) as Hs.
    { induction s0 as [|c r IH]; [done|]. cbn [fmap list_fmap strip_digits]. rewrite (proj2 (Hg c)). destruct (is_digit c); [exact IH|done]. }
    rewrite <-Hs. f_equal. generalize false. induction s as [|c r IH]; intros b; [done|]. cbn [fmap list_fmap replace_runs].
    rewrite (proj1 (Hg c)). destruct (kept c); [exact (f_equal (cons (g c)) (IH false))|].
    destruct b; [apply IH|]. cbn [fmap list_fmap]. rewrite Hgu. exact (f_equal (cons underscore) (IH true)). }
  assert (∀ s, clean_name (to_lower_c <$> s) = to_lower_c <$> clean_name s) as Hl by (apply Hclean; [|done]; intros c; destruct (H c) as ((?&?&?&?)&_); done).
  assert (∀ s, clean_name (to_upper_c <$> s) = to_upper_c <$> clean_name s) as Hup by (apply Hclean; [|done]; intros c; destruct (H c) as ((?&?&?&?)&_); done).
  assert (∀ (f g k : ascii → ascii) (l : bytes), (∀ c, f (g c) = k c) → f <$> (g <$> l) = k <$> l) as Hff.
  { intros f g k l Hk. rewrite <-list_fmap_compose. apply list_fmap_ext. intros i c _. apply Hk. }
  intros s. unfold func_name, env_var. rewrite !Hl, !Hup, !clean_idemp. split_and!.
  - intros c (c0 & -> & Hc)%elem_of_list_fmap. split; [|apply H]. apply H. by eapply clean_legal.
  - intros c r E. destruct (clean_name s) as [|c0 r0] eqn:Ec; [done|]. cbn [fmap list_fmap] in E. injection E as <- _.
    destruct (H c0) as ((_&_&->&_)&_). by eapply (clean_start s).
  - apply Hff. intros c. apply H.
  - done.
  - apply Hff. intros c. apply H.
  - apply Hff. intros c. apply H.
Qed.
Print Assumptions C09_func_name.
Example C09_func_nonvacuous : func_name (str "9My-Svc.Ctr__x") = str "my_svc_ctr_x" ∧ env_var (func_name (str "9My-Svc.Ctr__x")) = str "MY_SVC_CTR_X".
Proof. by vm_compute. Qed.

(** C47. What lines, blank lines, tabs and indentation are. *)
Inductive lines_of : list bytes → bytes → Prop :=
| lines_one l : newline ∉ l → lines_of [l] l
| lines_more l ls s : newline ∉ l → lines_of ls s → lines_of (l :: ls) (l ++ newline :: s).
Theorem C47_lines :
  (∀ s ls, split_lines s = ls ↔ lines_of ls s) ∧
  (∀ l, blank l = true ↔ ∀ c, c ∈ l → c ∈ str " " ++ [tab; newline; ascii_of_N 11; ascii_of_N 12; ascii_of_N 13]) ∧
  (∀ l1 l2, newline ∉ l1 → tab ∉ l1 → expand_tabs (l1 ++ tab :: l2) = l1 ++ str "    " ++ expand_tabs l2) ∧
  (∀ l, tab ∉ l → expand_tabs l = l) ∧
  (∀ l n, leading_spaces l = n ↔ ∃ rest, l = replicate n space ++ rest ∧ ∀ c r, rest = c :: r → c ≠ space).
Proof.
  assert (∀ s, lines_of (split_lines s) s) as Hsplit.
  { induction s as [|c r IH]; simpl; [constructor; set_solver|]. case_bool_decide as Hc; [subst; by apply (lines_more [] _ r); [set_solver|]|].
    inversion IH as [l Hl E|l ls s Hl Hs E]; subst.
    - apply lines_one. set_solver.
    - apply (lines_more (c :: l)); [set_solver|done]. }
  assert (∀ l, tab ∉ l → expand_tabs l = l) as Hnotab.
  { intros l. unfold expand_tabs. induction l as [|c r IH]; intros Hl; simpl; [done|]. rewrite bool_decide_false by set_solver. simpl. f_equal. apply IH. set_solver. }
  split_and!; [| | |done|].
  - intros s ls. split; [intros <-; apply Hsplit|]. intros Hls. generalize (Hsplit s). generalize (split_lines s). clear Hsplit.
    assert (∀ (l1 l2 : bytes) s1 s2, newline ∉ l1 → newline ∉ l2 → l1 ++ newline :: s1 = l2 ++ newline :: s2 → l1 = l2 ∧ s1 = s2) as Hsep.
    { induction l1 as [|a l1 IH]; intros [|b l2] s1 s2 H1 H2 E; simplify_eq/=; [done|set_solver..|].
      destruct (IH l2 s1 s2) as [-> ->]; [set_solver..|done]. }
    induction Hls as [l Hl|l ls s Hl Hls IH]; intros ls' H.
    + inversion H as [l' Hl'|l' ls0 s' Hl' Hs]; subst; [done|]. set_solver.
    + inversion H as [l' Hl' E|l' ls0 s' Hl' Hs E E']; subst; [set_solver|].
      match goal with E : _ ++ newline :: _ = _ ++ newline :: _ |- _ => apply Hsep in E as [-> ->]; [|done..] end. f_equal. by apply IH.
  - intros l. unfold blank. rewrite forallb_forall.
    assert (∀ c, is_white c = true ↔ c ∈ str " " ++ [tab; newline; ascii_of_N 11; ascii_of_N 12; ascii_of_N 13]) as Hw.
    { intros c. eapply bool_decide_eq_true_1. revert c. refine (by_cases (λ c, bool_decide _) _). vm_compute. reflexivity. }
    split; intros H c Hc; apply Hw, H; by apply elem_of_list_In.
  - intros l1 l2 _ Ht. unfold expand_tabs. rewrite flat_map_app. fold (expand_tabs l1). by rewrite Hnotab.
  - intros l n. split.
    + intros <-. induction l as [|c r IH]; simpl; [by exists []|]. destruct (is_space c) eqn:Ec.
      * apply C09_alphabet in Ec as ->. destruct IH as (rest & E & Hr). exists rest. split; [|done]. simpl. by rewrite <-E.
      * exists (c :: r). split; [done|]. intros c' r' [= <- <-] ->. done.
    + intros (rest & -> & Hr). induction n as [|n IH]; simpl; [|by rewrite IH].
      destruct rest as [|c r]; [done|]. simpl. destruct (is_space c) eqn:Ec; [|done]. apply C09_alphabet in Ec as ->. by destruct (Hr _ _ eq_refl).
Qed.
Print Assumptions C47_lines.
