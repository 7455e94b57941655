(** * Proofs about generated imports *)
From Verif Require Import Imports_Model Imports_Spec.
From Coq Require Import Lia.

(** ** Choosing a name *)
Lemma pick_not_seen fuel sn base : ∀ name i n, pick fuel sn base name i = Some n → n ∉ sn.
Proof.
  induction fuel as [|f IH]; intros name i n H; [done|]. cbn in H. case_bool_decide; [by eapply IH|]. by injection H as <-.
Qed.

Lemma pick_none fuel sn base : ∀ name i, pick fuel sn base name i = None →
  ∀ j, j + 1 < fuel → (base +:+ pretty (i + j)) ∈ sn.
Proof.
  induction fuel as [|f IH]; intros name i H j Hj; [lia|]. cbn in H. case_bool_decide as E; [|done].
  destruct f as [|f]; [lia|]. destruct j as [|j].
  - rewrite Nat.add_0_r. cbn in H. case_bool_decide as E'; done.
  - replace (i + S j) with (i + 1 + j) by lia. eapply IH; [done|lia].
Qed.

Lemma pick_some sn base : is_Some (pick (enough sn) sn base base 2).
Proof.
  destruct (pick (enough sn) sn base base 2) as [n|] eqn:E; [by eexists|exfalso].
  pose proof (pick_none _ _ _ _ _ E) as H.
  set (l := (λ j, base +:+ pretty (2 + j)) <$> seq 0 (S (size sn))).
  assert (NoDup l) as N.
  { apply NoDup_fmap_2; [|apply NoDup_seq]. intros x y Hxy. apply (inj (String.append base)) in Hxy.
    apply (inj pretty) in Hxy. lia. }
  assert (list_to_set l ⊆ sn) as L.
  { intros x Hx. apply elem_of_list_to_set in Hx. apply elem_of_list_fmap in Hx as (j & -> & Hj). apply elem_of_seq in Hj.
    apply H. unfold enough. lia. }
  apply subseteq_size in L. rewrite size_list_to_set in L by done. unfold l in L. rewrite fmap_length, seq_length in L. lia.
Qed.

(** ** The state of an Imports struct *)
Record iwf (im : imports) : Prop := IWF {
  w_split : ∀ p n, packages im !! p = Some n ↔ (p ∈ anonymous im ∧ n = last_comp p) ∨ named im !! p = Some n;
  w_disj : ∀ p, p ∈ anonymous im → named im !! p = None;
  w_seen : ∀ p n, packages im !! p = Some n → n ∈ seen im;
  w_inj : ∀ p p' n, packages im !! p = Some n → packages im !! p' = Some n → p = p';
  w_local : packages im !! local im = None }.

Record iext (im im' : imports) : Prop := IExt { e_local : local im' = local im; e_packages : packages im ⊆ packages im' }.
Lemma iext_refl im : iext im im. Proof. by split. Qed.
Lemma iext_trans a b c : iext a b → iext b c → iext a c.
Proof. intros [A1 A2] [B1 B2]. split; [congruence|by etrans]. Qed.

Lemma iwf_new loc : iwf (new_imports loc).
Proof.
  split; cbn.
  - intros p n. rewrite !lookup_empty. split; [done|]. intros [[?%elem_of_empty _]|?]; done.
  - intros p Hp. by apply elem_of_empty in Hp.
  - intros p n. by rewrite lookup_empty.
  - intros p p' n. by rewrite lookup_empty.
  - apply lookup_empty.
Qed.

Lemma add_package_spec im pkg im' r : iwf im → add_package im pkg = (im', r) →
  iwf im' ∧ iext im im' ∧ (pkg = local im ∧ r = "" ∧ im' = im ∨ pkg ≠ local im ∧ packages im' !! pkg = Some r) ∧
  (∀ p, p ≠ pkg → packages im' !! p = packages im !! p).
Proof.
  intros W H. unfold add_package in H. case_bool_decide as EL.
  { injection H as <- <-. split_and!; [done|apply iext_refl|by left|done]. }
  destruct (packages im !! pkg) as [name|] eqn:EP.
  { injection H as <- <-. split_and!; [done|apply iext_refl|by right|done]. }
  destruct (pick_some (seen im) (last_comp pkg)) as [name E]. rewrite E in H. injection H as <- <-.
  pose proof (pick_not_seen _ _ _ _ _ _ E) as NS. destruct W as [W1 W2 W3 W4 W5].
  assert (pkg ∉ anonymous im ∧ named im !! pkg = None) as [NA NN].
  { split; [intros X|destruct (named im !! pkg) eqn:X; [|done]].
    - assert (packages im !! pkg = Some (last_comp pkg)) by (apply W1; by left). congruence.
    - assert (packages im !! pkg = Some s) by (apply W1; by right). congruence. }
  split_and!.
  - split; cbn.
    + intros p n. destruct (decide (p = pkg)) as [->|Np].
      * rewrite lookup_insert. case_bool_decide as B.
        -- subst name. rewrite NN. split; [intros [= <-]; left; set_solver|]. intros [[_ ->]|?]; done.
        -- rewrite lookup_insert. split; [intros [= <-]; by right|]. intros [[? _]|[= <-]]; done.
      * rewrite lookup_insert_ne by done. rewrite W1. case_bool_decide as B.
        -- rewrite elem_of_union, elem_of_singleton. naive_solver.
        -- by rewrite lookup_insert_ne.
    + intros p Hp. case_bool_decide as B.
      * apply elem_of_union in Hp as [->%elem_of_singleton|Hp]; [done|by apply W2].
      * rewrite lookup_insert_ne; [by apply W2|]. by intros ->.
    + intros p n. destruct (decide (p = pkg)) as [->|Np].
      * rewrite lookup_insert. intros [= <-]. set_solver.
      * rewrite lookup_insert_ne by done. intros ?%W3. set_solver.
    + intros p p' n. destruct (decide (p = pkg)) as [->|Np], (decide (p' = pkg)) as [->|Np']; [done| | |].
      * rewrite lookup_insert, lookup_insert_ne by done. intros [= <-] ?%W3. done.
      * rewrite lookup_insert, lookup_insert_ne by done. intros ?%W3 [= <-]. done.
      * rewrite !lookup_insert_ne by done. apply W4.
    + by rewrite lookup_insert_ne.
  - split; cbn; [done|]. by apply insert_subseteq.
  - right. cbn. by rewrite lookup_insert.
  - intros p Np. cbn. by rewrite lookup_insert_ne.
Qed.

Definition covered (im : imports) (t : tname) : Prop := ∀ p, mentions t p → p = local im ∨ is_Some (packages im !! p).

Lemma covered_ext im im' t : iext im im' → covered im t → covered im' t.
Proof.
  intros [E1 E2] C p Hp. rewrite E1. destruct (C p Hp) as [?|[n Hn]]; [by left|right]. exists n. by eapply lookup_weaken.
Qed.

Lemma add_type_spec t : ∀ im, iwf im → iwf (add_type im t) ∧ iext im (add_type im t) ∧ covered (add_type im t) t.
Proof.
  induction t as [n|pkg n|t IH|t IH|t IH|k IHk v IHv|t IH|t IH|t IH|o|b IHb p IHp|n]; intros im W; cbn [add_type];
    try (by apply IH); try (split_and!; [done|apply iext_refl|by intros ? []]).
  - destruct (add_package im pkg) as [im' r] eqn:E. cbn.
    pose proof (add_package_spec _ _ _ _ W E) as (W' & X & D & _). split_and!; [done|done|].
    intros p Hp. cbn in Hp. subst p. destruct D as [(-> & _ & ->)|[_ D]]; [by left|right; eauto].
  - destruct (IHk im W) as (W1 & X1 & C1). destruct (IHv _ W1) as (W2 & X2 & C2).
    split_and!; [done|by eapply iext_trans|]. intros p [Hp|Hp].
    + by apply (covered_ext _ _ _ X2 C1).
    + by apply C2.
Qed.

Lemma add_type_idem t : ∀ im, covered im t → add_type im t = im.
Proof.
  induction t as [n|pkg n|t IH|t IH|t IH|k IHk v IHv|t IH|t IH|t IH|o|b IHb p IHp|n]; intros im C; cbn [add_type]; try done; try (by apply IH).
  - unfold add_package. case_bool_decide; [done|]. destruct (C pkg eq_refl) as [?|[n' Hn]]; [done|]. by rewrite Hn.
  - rewrite IHk, IHv; [done| |]; intros q Hq; apply C; cbn; tauto.
Qed.

(** The text of a type once its packages are there. *)
Fixpoint render (im : imports) (t : tname) : list tok :=
  match t with
  | TBasic n => [KId n]
  | TUser pkg n => qualify im pkg n
  | TPointer t => KStar :: render im t
  | TSlice t => KLB :: KRB :: render im t
  | TMap k v => KMap :: KLB :: render im k ++ KRB :: render im v
  | TChan t => KChan :: render im t
  | TRecv t => KArrow :: KChan :: render im t
  | TSend t => KChan :: KArrow :: render im t
  | TEllipsis _ | TOpaque _ | TGeneric _ _ | TParam _ => tname_string t
  end.

Lemma name_of_eq t : ∀ im, iwf im → name_of im t = (add_type im t, render (add_type im t) t).
Proof.
  induction t as [n|pkg n|t IH|t IH|t IH|k IHk v IHv|t IH|t IH|t IH|o|b IHb p IHp|n]; intros im W; cbn [name_of]; try done;
    try (destruct (add_type_spec t im W) as (W1 & X1 & C1); cbn [add_type];
         rewrite (IH _ W1), (add_type_idem t _ C1); reflexivity).
  destruct (add_type_spec (TMap k v) im W) as (W1 & X1 & C1).
  assert (covered (add_type im (TMap k v)) k ∧ covered (add_type im (TMap k v)) v) as [Ck Cv].
  { split; intros p Hp; apply C1; cbn; tauto. }
  set (im1 := add_type im (TMap k v)) in *. rewrite (IHk im1 W1), (add_type_idem _ _ Ck). rewrite (IHv im1 W1), (add_type_idem _ _ Cv). done.
Qed.

Lemma render_ext im im' t : iext im im' → covered im t → render im' t = render im t.
Proof.
  intros X. induction t as [n|pkg n|t IH|t IH|t IH|k IHk v IHv|t IH|t IH|t IH|o|b IHb p IHp|n]; intros C; cbn [render]; try done;
    try (by rewrite IH).
  - unfold qualify. destruct X as [E1 E2]. rewrite E1. case_bool_decide; [done|].
    destruct (C pkg eq_refl) as [?|[n' Hn]]; [done|]. by rewrite Hn, (lookup_weaken _ _ _ _ Hn E2).
  - rewrite IHk, IHv; [done| |]; intros q Hq; apply C; cbn; tauto.
Qed.

Lemma istep_spec im o : iwf im → iwf (istep im o) ∧ iext im (istep im o).
Proof.
  intros W. destruct o as [p|t|t]; cbn.
  - destruct (add_package im p) as [im' r] eqn:E. by pose proof (add_package_spec _ _ _ _ W E) as (? & ? & _).
  - by destruct (add_type_spec t im W) as (? & ? & _).
  - rewrite name_of_eq by done. by destruct (add_type_spec t im W) as (? & ? & _).
Qed.
Lemma irun_spec os : ∀ im, iwf im → iwf (irun im os) ∧ iext im (irun im os).
Proof.
  induction os as [|o os IH]; intros im W; [split; [done|apply iext_refl]|].
  destruct (istep_spec im o W) as [W1 X1]. destruct (IH _ W1) as [W2 X2]. split; [done|by eapply iext_trans].
Qed.

Lemma binds_packages im : iwf im → ∀ n p, binds (import_lines im) n p ↔ packages im !! p = Some n.
Proof.
  intros [W1 _ _ _ _] n p. rewrite W1. unfold binds, import_lines. rewrite !elem_of_app, !elem_of_list_fmap. split.
  - intros [[(q & ? & _)|(q & E & Hq)]|[[(q & E & Hq)|(q & ? & _)] ->]]; try done.
    + right. destruct q as [q1 q2]. injection E as -> ->. by apply elem_of_map_to_list in Hq.
    + left. injection E as ->. by rewrite elem_of_elements in Hq.
  - intros [[H ->]|H].
    + right. split; [|done]. left. exists p. by rewrite elem_of_elements.
    + left. right. exists (p, n). by rewrite elem_of_map_to_list.
Qed.

Lemma lines_NoDup im : iwf im → NoDup (import_lines im).*2.
Proof.
  intros W. unfold import_lines. rewrite fmap_app, <-!list_fmap_compose. apply NoDup_app. split_and!.
  - cbn. rewrite list_fmap_id. apply NoDup_elements.
  - intros p Hp Hq. cbn in Hp. rewrite list_fmap_id, elem_of_elements in Hp.
    apply elem_of_list_fmap in Hq as ([p' n] & E & Hq). cbn in E. subst p'. apply elem_of_map_to_list in Hq.
    by rewrite (w_disj _ W _ Hp) in Hq.
  - apply (NoDup_fst_map_to_list (named im)).
Qed.

(** ** Parsing *)
Lemma parses_det s g r : parses s g r → ∀ g' r', parses s g' r' → g = g' ∧ r = r'.
Proof.
  induction 1 as [x y r|x r N|s g r P IH|s g r P IH|s k s' v r P1 IH1 P2 IH2|s g r P IH|s g r P IH|s g r N P IH];
    intros g' r' H; inversion H; subst; try done;
    try (by destruct (IH _ _ ltac:(eassumption)) as [-> ->]);
    try (match goal with H : ∀ _, _ ≠ _ |- _ => by edestruct H end).
  match goal with A : parses s _ (KRB :: _) |- _ => destruct (IH1 _ _ A) as [-> E] end. injection E as ->.
  match goal with A : parses _ _ r' |- _ => destruct (IH2 _ _ A) as [-> ->] end. done.
Qed.

Lemma render_head pre loc im t s : plain pre loc t → render im t = KArrow :: s → ∃ t', t = TRecv t'.
Proof.
  intros P. destruct P; cbn; try done; eauto. unfold qualify. repeat case_match; done.
Qed.

Lemma render_parses pre loc im t : iwf im → local im = loc → covered im t → plain pre loc t →
  ∀ r, (∀ r', r ≠ KDot :: r') → ∃ g, parses (render im t ++ r) g r ∧ means pre loc (import_lines im) g t.
Proof.
  intros W EL C P. induction P as [x Hx|p x Hx|t P IH|t P IH|k v P1 IH1 P2 IH2|t P IH N|t P IH|t P IH]; intros r Hr; cbn [render].
  - exists (GName x). split; [by constructor|by constructor].
  - unfold qualify. rewrite EL. case_bool_decide as E.
    + subst p. exists (GName x). split; [by constructor|constructor; by apply Hx].
    + destruct (C p eq_refl) as [?|[n Hn]]; [congruence|]. rewrite Hn. exists (GSel n x). split; [constructor|].
      constructor. by apply binds_packages.
  - destruct (IH C r Hr) as (g & G1 & G2). exists (GStar g). split; by constructor.
  - destruct (IH C r Hr) as (g & G1 & G2). exists (GSlice g). split; by constructor.
  - assert (covered im k ∧ covered im v) as [Ck Cv] by (split; intros q Hq; apply C; cbn; tauto).
    destruct (IH1 Ck (KRB :: render im v ++ r)) as (g & G1 & G2); [done|].
    destruct (IH2 Cv r Hr) as (g' & G1' & G2'). exists (GMap g g'). split; [|by constructor].
    cbn [app]. econstructor; [|exact G1']. rewrite <-app_assoc. exact G1.
  - destruct (IH C r Hr) as (g & G1 & G2). exists (GChan g). split; [|by constructor]. constructor; [|done].
    intros s' E. destruct (render im t) as [|k s] eqn:R.
    + cbn in E. destruct P; cbn in R; try done. unfold qualify in R. repeat case_match; done.
    + cbn in E. injection E as -> _. apply (render_head _ _ _ _ _ P) in R as [t' ->]. by eapply N.
  - destruct (IH C r Hr) as (g & G1 & G2). exists (GRecv g). split; by constructor.
  - destruct (IH C r Hr) as (g & G1 & G2). exists (GSend g). split; by constructor.
Qed.

Lemma means_det pre loc lines g t : (∀ n p p', binds lines n p → binds lines n p' → p = p') →
  means pre loc lines g t → ∀ t', means pre loc lines g t' → t = t'.
Proof.
  intros I. induction 1; intros t0 Hm; inversion Hm; subst; try done; try (f_equal; by eauto).
Qed.

Lemma means_ext pre loc l l' g t : (∀ n p, binds l n p → binds l' n p) → means pre loc l g t → means pre loc l' g t.
Proof. intros I. induction 1; econstructor; eauto. Qed.

Lemma tname_equals_spec a : ∀ b, tname_equals a b = true ↔ a = b.
Proof.
  induction a; intros b; destruct b; cbn; try done; try (by rewrite IHa; split; congruence);
    try (by rewrite bool_decide_eq_true; split; congruence);
    try (by rewrite andb_true_iff, !bool_decide_eq_true; split; [intros [-> ->]|intros [=]]);
    try (rewrite andb_true_iff, IHa1, IHa2; split; [by intros [-> ->]|by intros [= -> ->]]).
  all: repeat match goal with o : opaque |- _ => destruct o end; split; done.
Qed.
