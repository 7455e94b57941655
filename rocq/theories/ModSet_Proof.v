(** * Proofs for module sets *)
From Coq Require Import Ascii.
From Verif Require Import ModSet_Model ModSet_Spec.
Set Default Proof Using "Type".

(** A set is in order with respect to what has been parsed *)
Record set_inv (heap : list pmod) (cache : gmap string nat) (s : mset) : Prop := {
  si_dirs : ∀ d m, ms_dirs s !! d = Some m → cache !! d = Some m;
  si_mods : ∀ n m, ms_modules s !! n = Some m → ∃ x, heap !! m = Some x ∧ pm_name x = n ∧ ms_dirs s !! pm_dir x = Some m;
  si_names : ∀ d m x, ms_dirs s !! d = Some m → heap !! m = Some x → is_Some (ms_modules s !! pm_name x) }.
Record inv (clean : string → string) (w : world) : Prop := {
  i_cache : ∀ d m, w_cache w !! d = Some m → ∃ x, w_heap w !! m = Some x ∧ pm_dir x = d ∧ clean d = d;
  i_heap : ∀ m x, w_heap w !! m = Some x → w_cache w !! pm_dir x = Some m;
  i_sets : ∀ i s, w_sets w !! i = Some s → set_inv (w_heap w) (w_cache w) s;
  i_parents : ∀ i s j, w_sets w !! i = Some s → ms_parent s = Some j → j < i;
  i_pkgs : ∀ m x name, w_heap w !! m = Some x → is_Some (pm_pkgs x !! name) → ∃ r, name = (pm_name x +:+ r)%string;
  i_fs : fs_ok (w_fs w) }.

(** What happens to a world in one call *)
Record ext (w w' : world) : Prop := {
  e_fs : w_fs w' = w_fs w;
  e_old : ∀ m x, w_heap w !! m = Some x → ∃ b, w_heap w' !! m = Some (PMod (pm_name x) (pm_dir x) (pm_pkgs x) b);
  e_new : ∀ m x, w_heap w' !! m = Some x → w_heap w !! m = None → w_fs w (pm_dir x) = Some (pm_name x, pm_pkgs x);
  e_cache : w_cache w ⊆ w_cache w';
  e_sets : ∀ i s, w_sets w !! i = Some s → ∃ s', w_sets w' !! i = Some s' ∧ ms_dirs s ⊆ ms_dirs s' ∧ ms_parent s' = ms_parent s ∧ dom (ms_modules s) ⊆ dom (ms_modules s') }.
Lemma ext_refl w : ext w w.
Proof. split; [done| |congruence|done|naive_solver]. intros m [] H. eauto. Qed.
Lemma ext_trans w1 w2 w3 : ext w1 w2 → ext w2 w3 → ext w1 w3.
Proof.
  intros [F1 O1 N1 C1 S1] [F2 O2 N2 C2 S2]. split; [congruence| | |by etrans|].
  - intros m x H. destruct (O1 m x H) as [b Hb]. destruct (O2 _ _ Hb) as [b' Hb']. eauto.
  - intros m x H3 H1. destruct (w_heap w2 !! m) as [y|] eqn:E.
    + pose proof (N1 m y E H1) as Hf. destruct (O2 m y E) as [b Hb]. rewrite H3 in Hb. by injection Hb as ->.
    + rewrite <- F1. by apply (N2 m).
  - intros i s H. destruct (S1 i s H) as (s2 & H2 & ? & ? & ?). destruct (S2 i s2 H2) as (s3 & ? & ? & ? & ?). exists s3.
    split_and!; [done|by etrans|congruence|by etrans].
Qed.

Lemma set_inv_mono heap heap' cache cache' s :
  (∀ m x, heap !! m = Some x → ∃ b, heap' !! m = Some (PMod (pm_name x) (pm_dir x) (pm_pkgs x) b)) → cache ⊆ cache' →
  (∀ d m, cache !! d = Some m → is_Some (heap !! m)) →
  set_inv heap cache s → set_inv heap' cache' s.
Proof.
  intros Ho Hc Hh [D M N]. split.
  - intros d m H. eapply lookup_weaken; [by apply D|done].
  - intros n m H. destruct (M n m H) as (x & Hx & <- & Hd). destruct (Ho m x Hx) as [b Hb]. eexists. split; [exact Hb|]. simpl. by split.
  - intros d m x H Hx. destruct (Hh d m (D d m H)) as [y Hy]. destruct (Ho m y Hy) as [b Hb]. rewrite Hx in Hb. injection Hb as ->.
    simpl. by eapply N.
Qed.

(** Saving modules *)
Lemma save_inv heap cache s m d : (∀ m x, heap !! m = Some x → cache !! pm_dir x = Some m) → cache !! d = Some m → is_Some (heap !! m) →
  set_inv heap cache s → set_inv heap cache (save heap s m).
Proof.
  intros Hh Hc [x Hx] [D M N]. unfold save. rewrite Hx. split; simpl.
  - intros d' m' [[<- <-]|[_ H]]%lookup_insert_Some; [by apply Hh|by apply D].
  - intros n m' [[<- <-]|[Hne H]]%lookup_insert_Some; [exists x; split_and!; [done|done|by rewrite lookup_insert]|].
    destruct (M n m' H) as (y & Hy & <- & Hd). exists y. split_and!; [done|done|].
    destruct (decide (pm_dir x = pm_dir y)) as [E|E]; [|by rewrite lookup_insert_ne]. rewrite E, lookup_insert.
    pose proof (Hh m x Hx) as H1. pose proof (Hh m' y Hy) as H2. rewrite E in H1. congruence.
  - intros d' m' y H Hy. destruct (decide (pm_name x = pm_name y)) as [E|E]; [rewrite E, lookup_insert; eauto|]. rewrite lookup_insert_ne by done.
    apply lookup_insert_Some in H as [[<- <-]|[_ H]]; [congruence|]. by eapply N.
Qed.
Lemma saves_spec heap cache ms : ∀ s, (∀ m x, heap !! m = Some x → cache !! pm_dir x = Some m) →
  (∀ m, m ∈ ms → is_Some (heap !! m)) → set_inv heap cache s →
  let s' := foldl (save heap) s ms in
  set_inv heap cache s' ∧ ms_parent s' = ms_parent s ∧ dom (ms_modules s) ⊆ dom (ms_modules s') ∧
  (∀ d m, ms_dirs s' !! d = Some m ↔ ms_dirs s !! d = Some m ∨ m ∈ ms ∧ pm_dir <$> heap !! m = Some d) ∧
  (∀ n m, ms_modules s' !! n = Some m → ms_modules s !! n = Some m ∨ m ∈ ms ∧ pm_name <$> heap !! m = Some n) ∧
  (∀ n, (∀ m, m ∈ ms → pm_name <$> heap !! m ≠ Some n) → ms_modules s' !! n = ms_modules s !! n).
Proof.
  induction ms as [|m ms IH]; intros s Hh Hms S; simpl; [set_solver|]. destruct (Hms m) as [x Hx]; [by left|].
  assert (set_inv heap cache (save heap s m)) as S1 by (eapply save_inv; [done|by apply Hh|eauto|done]).
  destruct (IH (save heap s m) Hh) as (I & P & Dm & D & M & F); [set_solver|done|]. split; [done|].
  unfold save in P, Dm, D, M, F |- *. rewrite Hx in P, Dm, D, M, F |- *. simpl in *. split; [done|]. split.
  { etrans; [|exact Dm]. rewrite dom_insert. set_solver. } split; [|split].
  - intros d m'. rewrite D, lookup_insert_Some, elem_of_cons. split.
    + intros [[[<- <-]|[_ H]]|[H1 H2]]; [right; rewrite Hx; auto|by left|right; auto].
    + intros [H|[[->|H1] H2]]; [|left; left; rewrite Hx in H2; by injection H2|by right].
      destruct (decide (pm_dir x = d)) as [E|E]; [|by left; right]. left. left. split; [done|].
      pose proof (si_dirs _ _ _ S _ _ H) as H1. pose proof (Hh m x Hx) as H2. rewrite E in H2. congruence.
  - intros n m' H. destruct (M n m' H) as [[[<- <-]|[_ H']]%lookup_insert_Some|[H1 H2]]; [right; rewrite Hx; split; [by left|done]|by left|right; split; [by right|done]].
  - intros n Hn. rewrite F by set_solver. apply lookup_insert_ne. intros <-. apply (Hn m); [by left|by rewrite Hx].
Qed.

Section clean.
Context (clean : string → string) (Hclean : clean_ok clean).

Lemma inv0 fs : fs_ok fs → inv clean (world0 fs).
Proof. intros H. split; simpl; try done; intros; try (by rewrite lookup_empty in *); by rewrite lookup_nil in *. Qed.

Lemma in_parents_cached w : inv clean w → ∀ fuel p d m, in_parents fuel (w_sets w) p d = Some m → w_cache w !! d = Some m.
Proof.
  intros I. induction fuel as [|fuel IH]; intros [j|] d m H; simpl in H; try done.
  destruct (w_sets w !! j) as [s|] eqn:Ej; [|done]. destruct (ms_dirs s !! d) as [m'|] eqn:Ed.
  - injection H as ->. eapply si_dirs; [by eapply i_sets|done].
  - by eapply IH.
Qed.

(** The world after parsing one more directory *)
Lemma inv_parse w d n ps : inv clean w → clean d = d → w_cache w !! d = None → w_fs w d = Some (n, ps) →
  let w' := World (w_fs w) (w_heap w ++ [PMod n d ps true]) (<[d := length (w_heap w)]> (w_cache w)) (w_sets w) in
  inv clean w' ∧ ext w w'.
Proof.
  intros I Hd Hc Hf w'. assert (∀ m x, w_heap w !! m = Some x → w_heap w' !! m = Some x) as Hheap by (intros; by apply lookup_app_l_Some).
  assert (w_cache w ⊆ w_cache w') as Hsub by (by apply insert_subseteq).
  assert (∀ m x, w_heap w' !! m = Some x → w_heap w !! m = Some x ∨ m = length (w_heap w) ∧ x = PMod n d ps true) as Hinv.
  { intros m x H. simpl in H. apply lookup_app_Some in H as [H|[H1 H2]]; [by left|right].
    destruct (m - length (w_heap w)) as [|k] eqn:E; [|done]. injection H2 as <-. split; [lia|done]. }
  split; [split|split; try done].
  - intros d' m H. simpl in H. apply lookup_insert_Some in H as [[<- <-]|[Hne H]].
    + exists (PMod n d ps true). split; [|done]. simpl. rewrite lookup_app_r, Nat.sub_diag by done. done.
    + destruct (i_cache _ _ I d' m H) as (x & Hx & ? & ?). eauto.
  - intros m x H. destruct (Hinv m x H) as [Ho|[-> ->]]; simpl.
    + pose proof (i_heap _ _ I m x Ho) as Hm. rewrite lookup_insert_ne; [done|]. intros ->. congruence.
    + by rewrite lookup_insert.
  - intros i s H. eapply set_inv_mono; [|done| |by eapply i_sets]; [intros m [] Hm; eexists; by apply Hheap|].
    intros d' m Hm. destruct (i_cache _ _ I d' m Hm) as (x & ? & _). eauto.
  - intros i s j H. by eapply (i_parents _ _ I).
  - intros m x name H. destruct (Hinv m x H) as [Ho|[-> ->]]; [by eapply (i_pkgs _ _ I)|]. simpl. by eapply (i_fs _ _ I).
  - apply (i_fs _ _ I).
  - intros m [] Hm. eexists. by apply Hheap.
  - intros m x H Hn. destruct (Hinv m x H) as [Ho|[-> ->]]; [congruence|done].
  - intros i s H. exists s. done.
Qed.

(** One directory: nothing, a known module, or a new one *)
Definition dir_ok (w : world) (s : mset) (d : string) : Prop :=
  is_Some (ms_dirs s !! clean d) ∨ is_Some (w_cache w !! clean d) ∨ ∃ n ps, w_fs w (clean d) = Some (n, ps) ∧ ms_modules s !! n = None.
Lemma add_dir_spec w i s news d : inv clean w → w_sets w !! i = Some s →
  ∃ w' r, add_dir clean i s w news d = (w', r) ∧ inv clean w' ∧ ext w w' ∧ w_sets w' = w_sets w ∧
    (∀ d', d' ≠ clean d → w_cache w' !! d' = w_cache w !! d') ∧
    match r with
    | None => ¬ dir_ok w s d
    | Some news' => dir_ok w s d ∧ ∃ m, w_cache w' !! clean d = Some m ∧
        ((is_Some (ms_dirs s !! clean d) ∧ news' = news) ∨ (ms_dirs s !! clean d = None ∧ news' = news ++ [m]))
    end.
Proof using Hclean.
  intros I Hs. unfold add_dir, dir_ok. destruct (ms_dirs s !! clean d) as [m|] eqn:Ed.
  { assert (w_cache w !! clean d = Some m) as Hc by (eapply si_dirs; [by eapply i_sets|done]).
    exists w, (Some news). split_and!; try done; [apply ext_refl|left; eauto|]. exists m. split; [done|left; eauto]. }
  destruct (w_cache w !! clean d) as [m|] eqn:Ec.
  { exists w, (Some (news ++ [m])). split_and!; try done; [apply ext_refl|right; left; eauto|]. exists m. split; [done|right; eauto]. }
  destruct (in_parents i (w_sets w) (ms_parent s) (clean d)) as [m|] eqn:Ep.
  { apply (in_parents_cached w I) in Ep. congruence. }
  unfold parse_module. rewrite Hclean. destruct (w_fs w (clean d)) as [[n ps]|] eqn:Ef.
  - destruct (inv_parse w (clean d) n ps I (Hclean d) Ec Ef) as [I' X]. simpl.
    rewrite lookup_app_r, Nat.sub_diag by done. simpl. destruct (ms_modules s !! n) as [m'|] eqn:En.
    + eexists _, None. split; [done|]. split; [done|]. split; [done|]. split; [done|]. split.
      * simpl. intros d' Hne. by rewrite lookup_insert_ne by done.
      * intros [[? ?]|[[? ?]|(n' & ps' & Hn & ?)]]; try done. injection Hn as -> ->. congruence.
    + eexists _, (Some _). split; [done|]. split; [done|]. split; [done|]. split; [done|]. split.
      * simpl. intros d' Hne. by rewrite lookup_insert_ne by done.
      * split; [right; right; eauto|]. exists (length (w_heap w)). simpl. split; [by rewrite lookup_insert|right; done].
  - exists w, None. split; [done|]. split; [done|]. split; [apply ext_refl|]. split; [done|]. split; [done|].
    intros [[? ?]|[[? ?]|(n' & ps' & Hn & ?)]]; done.
Qed.

(** The modules collected in one call *)
Definition news_ok (w : world) (s : mset) (ds : list string) (news : list nat) : Prop :=
  (∀ m, m ∈ news → ∃ d, d ∈ ds ∧ w_cache w !! clean d = Some m ∧ ms_dirs s !! clean d = None) ∧
  (∀ d, d ∈ ds → is_Some (ms_dirs s !! clean d) ∨ ∃ m, w_cache w !! clean d = Some m ∧ m ∈ news).
Lemma add_dirs_spec i s ds : ∀ w news old,
  inv clean w → w_sets w !! i = Some s → news_ok w s old news →
  ∃ w' r, add_dirs clean i s w news ds = (w', r) ∧ inv clean w' ∧ ext w w' ∧ w_sets w' = w_sets w ∧
    (∀ d, (∀ d', d' ∈ ds → clean d' ≠ d) → w_cache w' !! d = w_cache w !! d) ∧
    match r with
    | None => ∃ d, d ∈ ds ∧ ¬ dir_ok w s d
    | Some news' => (∀ d, d ∈ ds → dir_ok w s d) ∧ news_ok w' s (old ++ ds) news'
    end.
Proof using Hclean.
  induction ds as [|d ds IH]; intros w news old I Hs Hn; simpl.
  { exists w, (Some news). split; [done|]. split; [done|]. split; [apply ext_refl|]. split; [done|]. split; [done|].
    rewrite (right_id_L [] (++)). split; [set_solver|done]. }
  destruct (add_dir_spec w i s news d I Hs) as (w1 & [news1|] & -> & I1 & X1 & S1 & Hfr & Hr).
  2: { exists w1, None. split; [done|]. split; [done|]. split; [done|]. split; [done|]. split; [|exists d; set_solver].
       intros d' Hd'. apply Hfr. intros ->. apply (Hd' d); [by left|done]. }
  destruct Hr as (Hd & m & Hm & Hnews).
  assert (news_ok w1 s (old ++ [d]) news1) as Hn1.
  { destruct Hn as [Ha Hb]. split.
    - intros m' Hm'. assert (m' ∈ news ∨ m' = m ∧ ms_dirs s !! clean d = None) as [H|[-> H]].
      { destruct Hnews as [[_ ->]|[? ->]]; [by left|]. apply elem_of_app in Hm' as [?|?%elem_of_list_singleton]; [by left|by right]. }
      + destruct (Ha m' H) as (d' & ? & ? & ?). exists d'. split_and!; [set_solver|by eapply lookup_weaken, e_cache|done].
      + exists d. split_and!; [set_solver|done|done].
    - intros d' [H|Hx%elem_of_list_singleton]%elem_of_app; [|subst d'].
      + destruct (Hb d' H) as [?|(m' & ? & ?)]; [by left|right]. exists m'. split; [by eapply lookup_weaken, e_cache|].
        destruct Hnews as [[_ ->]|[_ ->]]; set_solver.
      + destruct Hnews as [[? _]|[? ->]]; [by left|right]. exists m. split; [done|set_solver]. }
  assert (∀ d', dir_ok w1 s d' ↔ dir_ok w s d') as Hdir.
  { intros d'. unfold dir_ok. rewrite (e_fs _ _ X1). split.
    - intros [H|[H|H]]; [by left| |right; by right]. destruct (decide (clean d' = clean d)) as [E|E].
      + unfold dir_ok in Hd. by rewrite E.
      + right. left. by rewrite <- Hfr.
    - intros [H|[[m' H]|H]]; [by left| |right; by right]. right. left. exists m'. by eapply lookup_weaken, e_cache. }
  destruct (IH w1 news1 (old ++ [d]) I1) as (w2 & r & -> & I2 & X2 & S2 & Hf2 & Hr2); [congruence|done|].
  exists w2, r. split; [done|]. split; [done|]. split; [by eapply ext_trans|]. split; [congruence|]. split.
  { intros d' Hd'. rewrite Hf2 by set_solver. apply Hfr. intros ->. apply (Hd' d); [by left|done]. }
  destruct r as [news2|].
  - destruct Hr2 as [Ha Hb]. rewrite <- (assoc_L (++)) in Hb. split; [|done]. intros d' [Hx|H]%elem_of_cons; [by subst d'|]. by apply Hdir, Ha.
  - destruct Hr2 as (d' & ? & ?). exists d'. rewrite <- Hdir. set_solver.
Qed.

Lemma add_modules_spec w i ds s : inv clean w → w_sets w !! i = Some s →
  ∃ w' b, add_modules clean w i ds = (w', b) ∧ inv clean w' ∧ ext w w' ∧
    (∀ d, (∀ d', d' ∈ ds → clean d' ≠ d) → w_cache w' !! d = w_cache w !! d) ∧
    (∀ j, j ≠ i → w_sets w' !! j = w_sets w !! j) ∧ length (w_sets w') = length (w_sets w) ∧
    (b = false → w_sets w' = w_sets w) ∧
    (b = true ↔ ∀ d, d ∈ ds → dir_ok w s d) ∧
    (b = true → ∃ s', w_sets w' !! i = Some s' ∧
       (∀ d m, ms_dirs s' !! d = Some m ↔ ms_dirs s !! d = Some m ∨ (w_cache w' !! d = Some m ∧ ∃ d', d' ∈ ds ∧ clean d' = d)) ∧
       (∀ d, d ∈ ds → is_Some (ms_dirs s' !! clean d)) ∧
       (∀ n m, ms_modules s' !! n = Some m → ms_modules s !! n = Some m ∨ ∃ d', d' ∈ ds ∧ w_cache w' !! clean d' = Some m)).
Proof using Hclean.
  intros I Hs. unfold add_modules. rewrite Hs.
  destruct (add_dirs_spec i s ds w [] [] I Hs) as (w1 & [news|] & -> & I1 & X1 & S1 & Hf & Hr); [split; set_solver| |].
  2: { exists w1, false. split; [done|]. split; [done|]. split; [done|]. split; [done|]. split; [by rewrite S1|]. split; [by rewrite S1|]. split; [done|]. split; [|done].
       split; [done|]. intros H. destruct Hr as (d & Hd & Hn). by destruct (Hn (H d Hd)). }
  destruct Hr as [Hok [Hn1 Hn2]]. simpl in Hn1, Hn2.
  assert (w_sets w1 !! i = Some s) as Hs1 by congruence.
  destruct (saves_spec (w_heap w1) (w_cache w1) news s (i_heap _ _ I1)) as (Si & Pi & Di & Da & Ma & Fa).
  { intros m Hm. destruct (Hn1 m Hm) as (d & _ & Hd & _). destruct (i_cache _ _ I1 _ _ Hd) as (x & ? & _). eauto. }
  { by eapply i_sets. }
  set (s' := foldl (save (w_heap w1)) s news) in *.
  eexists _, true. split; [done|].
  assert (i < length (w_sets w1)) as Hlen by (by eapply lookup_lt_Some).
  split; [|split; [|split; [done|split; [|split; [|split; [done|split; [done|]]]]]]]; simpl.
  - destruct I1 as [A B C D' E F]. split; simpl; [done|done| | |done|done].
    + intros j t [(-> & <- & _)|[_ H]]%list_lookup_insert_Some; [done|by eapply C].
    + intros j t k [(-> & <- & _)|[_ H]]%list_lookup_insert_Some Hp; [|by eapply D']. rewrite Pi in Hp. by eapply D'.
  - eapply ext_trans; [done|]. split; simpl; [done| |congruence|done|].
    + intros m [] Hm. eauto.
    + intros j t Hj. destruct (decide (i = j)) as [<-|Hne].
      * rewrite list_lookup_insert by done. exists s'. assert (t = s) as -> by congruence. split; [done|]. split; [|done].
        apply map_subseteq_spec. intros d m Hd. apply Da. by left.
      * rewrite list_lookup_insert_ne by done. eauto.
  - intros j Hj. by rewrite list_lookup_insert_ne, S1 by done.
  - by rewrite insert_length, S1.
  - intros _. exists s'. rewrite list_lookup_insert by done. split; [done|]. split.
    + intros d m. rewrite Da. split; (intros [H|H]; [by left|]).
      * destruct H as [Hm Hd]. right. destruct (w_heap w1 !! m) as [x|] eqn:Ex; [|done]. injection Hd as <-.
        destruct (Hn1 m Hm) as (d' & Hd' & Hc & _). split; [by apply (i_heap _ _ I1)|].
        exists d'. split; [done|]. destruct (i_cache _ _ I1 _ _ Hc) as (y & Hy & <- & _). congruence.
      * destruct H as [Hc (d' & Hd' & <-)]. destruct (Hn2 d' Hd') as [[m' Hm']|(m' & Hc' & Hm')].
        -- left. assert (w_cache w1 !! clean d' = Some m'); [|congruence]. eapply si_dirs; [by eapply (i_sets _ _ I1)|done].
        -- right. assert (m = m') as -> by congruence. split; [done|]. destruct (i_cache _ _ I1 _ _ Hc) as (y & -> & <- & _). done.
    + split. { intros d Hd. destruct (Hn2 d Hd) as [[m Hm]|(m & Hc & Hm)]; exists m; apply Da; [by left|right].
        split; [done|]. destruct (i_cache _ _ I1 _ _ Hc) as (y & -> & <- & _). done. }
      intros n m H. destruct (Ma n m H) as [?|[Hm _]]; [by left|right]. destruct (Hn1 m Hm) as (d & ? & ? & _). eauto.
Qed.

(** Setting the flag of a module *)
Lemma set_local_spec w m b : inv clean w → inv clean (set_local w m b) ∧ ext w (set_local w m b).
Proof.
  intros I.
  assert (∀ k x, w_heap w !! k = Some x → ∃ b', w_heap (set_local w m b) !! k = Some (PMod (pm_name x) (pm_dir x) (pm_pkgs x) b')) as Ho.
  { intros k x Hx. simpl. destruct (decide (k = m)) as [->|Hne]; [rewrite list_lookup_alter, Hx; eauto|].
    rewrite list_lookup_alter_ne, Hx by done. destruct x. eauto. }
  assert (∀ k y, w_heap (set_local w m b) !! k = Some y → ∃ x, w_heap w !! k = Some x ∧ pm_name y = pm_name x ∧ pm_dir y = pm_dir x ∧ pm_pkgs y = pm_pkgs x) as Hi.
  { intros k y Hy. destruct (w_heap w !! k) as [x|] eqn:Ex; [|apply lookup_ge_None in Ex; apply lookup_lt_Some in Hy; simpl in Hy; rewrite alter_length in Hy; lia].
    destruct (Ho k x Ex) as [b' Hb]. rewrite Hy in Hb. injection Hb as ->. eauto. }
  split.
  - destruct I as [A B C D E F]. split; simpl.
    + intros d k H. destruct (A d k H) as (x & Hx & ? & ?). destruct (Ho k x Hx) as [b' Hb]. eexists. split; [exact Hb|]. done.
    + intros k y Hy. destruct (Hi k y Hy) as (x & Hx & _ & -> & _). by apply B.
    + intros i s Hs. eapply set_inv_mono; [exact Ho|done| |by eapply C]. intros d k H. destruct (A d k H) as (x & Hx & _). eauto.
    + done.
    + intros k y name Hy. destruct (Hi k y Hy) as (x & Hx & -> & _ & ->). by eapply E.
    + done.
  - split; simpl; [done|exact Ho| |done|naive_solver]. intros k y Hy Hn. destruct (Hi k y Hy) as (x & Hx & _). congruence.
Qed.

Lemma add_module_spec w i d s : inv clean w → w_sets w !! i = Some s →
  ∃ w' r, add_module clean w i d = (w', r) ∧ inv clean w' ∧ ext w w' ∧
    (∀ j, j ≠ i → w_sets w' !! j = w_sets w !! j) ∧
    match r with
    | RMod m => clean d = d ∧ w_cache w' !! d = Some m ∧ ∃ s', w_sets w' !! i = Some s' ∧ ms_dirs s' !! d = Some m
    | RNil => clean d ≠ d ∧ dir_ok w s d
    | RErr => ¬ dir_ok w s d
    | RPanic => False
    end.
Proof using Hclean.
  intros I Hs. unfold add_module.
  destruct (add_modules_spec w i [d] s I Hs) as (w' & b & -> & I' & X' & Hf & Hj & Hl & Hb0 & Hok & Hb1).
  destruct b.
  - destruct Hb1 as (s' & Hs' & Hd & Hin & _); [done|]. rewrite Hs'. eexists _, _. split; [done|]. split; [done|]. split; [done|]. split; [done|].
    assert (dir_ok w s d) as Hdok by (apply Hok; [done|by left]).
    destruct (ms_dirs s' !! d) as [m|] eqn:E.
    + apply Hd in E as Hm. assert (w_cache w' !! d = Some m) as Hc.
      { destruct Hm as [Hm|[? _]]; [|done]. eapply lookup_weaken; [|exact (e_cache _ _ X')]. eapply si_dirs; [by eapply i_sets|done]. }
      split; [|split; [done|eauto]]. destruct (i_cache _ _ I' _ _ Hc) as (x & _ & _ & ?). done.
    + split; [|done]. intros Hcl. destruct (Hin d) as [m Hm]; [by left|]. rewrite Hcl in Hm. congruence.
  - eexists _, _. split; [done|]. split; [done|]. split; [done|]. split; [done|]. intros H. assert (false = true); [|done]. apply Hok. intros d' ->%elem_of_list_singleton. done.
Qed.

(** Looking for a package *)
Lemma search_some heap name l m p : search heap name l = Some (m, p) →
  ∃ n x, (n, m) ∈ l ∧ heap !! m = Some x ∧ pm_pkgs x !! name = Some p.
Proof.
  induction l as [|[n k] l IH]; simpl; [done|]. intros H.
  assert (search heap name l = Some (m, p) → ∃ n' x, (n', m) ∈ (n, k) :: l ∧ heap !! m = Some x ∧ pm_pkgs x !! name = Some p) as Hr.
  { intros Hl. destruct (IH Hl) as (n' & x & ? & ?). exists n', x. split; [by right|done]. }
  destruct (String.prefix n name); [|by apply Hr]. destruct (heap !! k) as [x|] eqn:Ex; [|by apply Hr].
  destruct (pm_pkgs x !! name) as [p'|] eqn:Ep; [|by apply Hr]. injection H as <- <-. exists n, x. split; [by left|done].
Qed.
Lemma prefix_app n r : String.prefix n (n +:+ r) = true.
Proof. induction n as [|c n IH]; simpl; [by destruct r|]. by destruct (Ascii.ascii_dec c c). Qed.
Lemma search_none heap name l n m x : search heap name l = None → (n, m) ∈ l → heap !! m = Some x →
  (∃ r, name = (n +:+ r)%string) → pm_pkgs x !! name = None.
Proof.
  intros H Hin Hx [r ->]. induction l as [|[n' k] l IH]; [by apply elem_of_nil in Hin|]. simpl in H. apply elem_of_cons in Hin as [E|Hin].
  - injection E as <- <-. rewrite prefix_app, Hx in H. by destruct (pm_pkgs x !! (n +:+ r)%string).
  - apply IH; [|done]. destruct (String.prefix n' (n +:+ r)); [|done]. destruct (heap !! k) as [y|]; [|done]. by destruct (pm_pkgs y !! (n +:+ r)%string).
Qed.
Lemma search_level w i s ord name : inv clean w → order_ok ord → w_sets w !! i = Some s →
  match search (w_heap w) name (ord i (map_to_list (ms_modules s))) with
  | Some (m, p) => offers w i name m p
  | None => ∀ m p, ¬ offers w i name m p
  end.
Proof.
  intros I Ho Hs. destruct (search _ _ _) as [[m p]|] eqn:E.
  - apply search_some in E as (n & x & Hin & Hx & Hp). rewrite (Ho i) in Hin. apply elem_of_map_to_list in Hin.
    exists n. split; [by exists s|by exists x].
  - intros m p (n & (s' & Hs' & Hn) & (x & Hx & Hp)). assert (s' = s) as -> by congruence.
    destruct (si_mods _ _ _ (i_sets _ _ I i s Hs) n m Hn) as (y & Hy & <- & _). assert (y = x) as -> by congruence.
    rewrite (search_none (w_heap w) name _ (pm_name x) m x E) in Hp; [done| |done|].
    + rewrite (Ho i). by apply elem_of_map_to_list.
    + eapply (i_pkgs _ _ I); eauto.
Qed.

Lemma chain_fun w i l : chain w i l → ∀ l', chain w i l' → l = l'.
Proof.
  induction 1 as [i s Hs Hp|i s j l Hs Hp Hc IH]; intros l' H'; inversion H' as [? s' Hs' Hp'|? s' j' r Hs' Hp' Hc']; subst; assert (s' = s) as -> by congruence.
  - done.
  - congruence.
  - congruence.
  - f_equal. apply IH. by replace j with j' by congruence.
Qed.
Lemma chain_exists w : inv clean w → ∀ i, i < length (w_sets w) → ∃ l, chain w i l.
Proof.
  intros I i. induction (lt_wf i) as [i _ IH]. intros Hi. destruct (lookup_lt_is_Some_2 (w_sets w) i Hi) as [s Hs].
  destruct (ms_parent s) as [j|] eqn:Hp; [|exists [i]; by eapply chain_root].
  pose proof (i_parents _ _ I i s j Hs Hp). destruct (IH j) as [l Hl]; [lia|lia|]. exists (i :: l). by eapply chain_up.
Qed.

(** Where the package found comes from *)
Definition from_path (find : string → option (string * bool)) (w w' : world) (root : nat) (name : string) (r : pres) : Prop :=
  match find name with
  | None => w' = w ∧ r = PErr
  | Some (d, local) =>
      inv clean w' ∧ ext w w' ∧
      match r with
      | PPkg m p => clean d = d ∧ under_dir w' root d m ∧ has_pkg w' m name p ∧ is_local w' m local
      | PErr => (∃ s, w_sets w !! root = Some s ∧ ¬ dir_ok w s d) ∨
                ∃ m, clean d = d ∧ under_dir w' root d m ∧ (∀ p, ¬ has_pkg w' m name p)
      | PPanic => clean d ≠ d ∧ ∃ s, w_sets w !! root = Some s ∧ dir_ok w s d
      end
  end.
Lemma get_package_spec ord find w name : inv clean w → order_ok ord → ∀ fuel i l, i < fuel → chain w i l →
  ∃ w' r, get_package clean fuel ord find w i name = (w', r) ∧
    ((∃ k m p, nearest w l name k ∧ offers w k name m p ∧ w' = w ∧ r = PPkg m p) ∨
     ((∀ j m p, j ∈ l → ¬ offers w j name m p) ∧ ∃ root, last l = Some root ∧ from_path find w w' root name r)).
Proof using Hclean.
  intros I Ho. induction fuel as [|fuel IH]; intros i l Hi Hc; [lia|]. simpl.
  assert (∃ s, w_sets w !! i = Some s) as [s Hs] by (inversion Hc; eauto). rewrite Hs.
  pose proof (search_level w i s ord name I Ho Hs) as Hl. destruct (search _ _ _) as [[m p]|].
  { exists w, (PPkg m p). split; [done|left]. exists i, m, p. split_and!; [|done|done|done].
    inversion Hc; subst; [exists [], []|exists [], l0]; (split; [done|]; split; [eauto|set_solver]). }
  destruct (ms_parent s) as [j|] eqn:Hp.
  - inversion Hc as [? s' Hs' Hp'|? s' j' r' Hs' Hp' Hc']; subst; assert (s' = s) as -> by congruence; [congruence|].
    assert (j' = j) as -> by congruence. pose proof (i_parents _ _ I i s j Hs Hp).
    destruct (IH j r') as (w' & r & -> & Hr); [lia|done|]. exists w', r. split; [done|]. destruct Hr as [(k & m & p & (l1 & l2 & -> & Hex & Hno) & Hof & ? & ?)|[Hno (root & Hlast & Hf)]].
    + left. exists k, m, p. split_and!; [|done|done|done]. exists (i :: l1), l2. split; [done|]. split; [done|].
      intros j0 m0 p0 [Hj0|Hj0]%elem_of_cons; [subst j0; apply Hl|by apply Hno].
    + right. split; [intros j0 m0 p0 [Hj0|Hj0]%elem_of_cons; [subst j0; apply Hl|by apply Hno]|]. exists root. split; [|done].
      destruct r'; [done|]. by rewrite last_cons_cons.
  - inversion Hc as [? s' Hs' Hp'|? s' j' r' Hs' Hp' Hc']; subst; assert (s' = s) as -> by congruence; [|congruence].
    assert (∀ j m p, j ∈ [i] → ¬ offers w j name m p) as Hno by (intros j m p ->%elem_of_list_singleton; apply Hl).
    destruct (find name) as [[d local]|] eqn:Ef.
    2: { exists w, PErr. split; [done|right]. split; [done|]. exists i. split; [done|]. unfold from_path. by rewrite Ef. }
    destruct (add_module_spec w i d s I Hs) as (w1 & r1 & -> & I1 & X1 & _ & Hr).
    destruct r1 as [m| | |]; [| | |done].
    + destruct Hr as (Hcl & Hcm & s' & Hs'' & Hd). destruct (i_cache _ _ I1 _ _ Hcm) as (x & Hx & Hxd & _). rewrite Hx.
      destruct (set_local_spec w1 m local I1) as [I2 X2].
      assert (w_heap (set_local w1 m local) !! m = Some (PMod (pm_name x) (pm_dir x) (pm_pkgs x) local)) as Hx2.
      { simpl. by rewrite list_lookup_alter, Hx. }
      destruct (pm_pkgs x !! name) as [p|] eqn:Ep.
      * eexists _, _. split; [done|right]. split; [done|]. exists i. split; [done|]. unfold from_path. rewrite Ef.
        split; [done|]. split; [by eapply ext_trans|]. split; [done|]. split; [by exists s'|]. split.
        -- eexists. split; [exact Hx2|]. done.
        -- unfold is_local. by rewrite Hx2.
      * eexists _, _. split; [done|right]. split; [done|]. exists i. split; [done|]. unfold from_path. rewrite Ef.
        split; [done|]. split; [by eapply ext_trans|]. right. exists m. split; [done|]. split; [by exists s'|].
        intros p (y & Hy & Hq). rewrite Hx2 in Hy. injection Hy as <-. simpl in Hq. congruence.
    + eexists _, _. split; [done|right]. split; [done|]. exists i. split; [done|]. unfold from_path. rewrite Ef. split; [done|]. split; [done|].
      destruct Hr. eauto.
    + eexists _, _. split; [done|right]. split; [done|]. exists i. split; [done|]. unfold from_path. rewrite Ef. split; [done|]. split; [done|].
      left. eauto.
Qed.

(** Every call *)
Lemma mstep_inv w o : inv clean w → op_ok o → inv clean (mstep clean w o).1.
Proof using Hclean.
  intros I Ho. destruct o as [p|i ds|i d b|i n ord find|fs]; simpl.
  - destruct I as [A B C D E F]. split; simpl; [done|done| | |done|done].
    + intros i s H. apply lookup_app_Some in H as [H|[_ H]]; [by eapply C|]. apply list_lookup_singleton_Some in H as [_ <-].
      split; simpl; intros; by rewrite lookup_empty in *.
    + intros i s j H Hp. apply lookup_app_Some in H as [H|[Hl H]]; [by eapply D|]. apply list_lookup_singleton_Some in H as [_ <-].
      simpl in Hp. destruct p as [p|]; [|done]. simpl in Hp. case_bool_decide; [|done]. injection Hp as ->. lia.
  - destruct (w_sets w !! i) as [s|] eqn:Hs; [|unfold add_modules; by rewrite Hs].
    destruct (add_modules_spec w i ds s I Hs) as (w' & b & -> & I' & _). done.
  - unfold add. destruct (w_sets w !! i) as [s|] eqn:Hs; [|unfold add_module, add_modules; by rewrite Hs].
    destruct (add_module_spec w i d s I Hs) as (w' & r & -> & I' & _). destruct r; [by apply set_local_spec|done|done|done].
  - destruct (decide (i < length (w_sets w))) as [Hi|Hi].
    + destruct (chain_exists w I i Hi) as [l Hl]. destruct (get_package_spec ord find w n I Ho (S i) i l) as (w' & r & E & Hr); [lia|done|].
      simpl in E. rewrite E. simpl. destruct Hr as [(k & m & p & _ & _ & -> & _)|(_ & root & _ & Hf)]; [done|].
      unfold from_path in Hf. destruct (find n) as [[d local]|]; [by destruct Hf|by destruct Hf as [-> _]].
    + rewrite lookup_ge_None_2 by lia. done.
  - destruct I as [A B C D E F]. by split.
Qed.
Lemma reachable_inv w : reachable clean w → inv clean w.
Proof using Hclean.
  intros (fs & os & Hfs & Hos & ->). unfold mrun. revert Hos. generalize (inv0 fs Hfs). generalize (world0 fs).
  induction os as [|o os IH]; intros w I Hos; [done|]. apply Forall_cons in Hos as [? ?]. simpl. apply IH; [by apply mstep_inv|done].
Qed.
(** What a call does to what was there, apart from the file system *)
Lemma mstep_ext w o : inv clean w → op_ok o → (∀ fs, o ≠ Files fs) → ext w (mstep clean w o).1.
Proof using Hclean.
  intros I Ho Hfs. destruct o as [p|i ds|i d b|i n ord find|fs]; simpl; [| | | |by destruct (Hfs fs)].
  - split; simpl; [done| |congruence|done|]; [intros m [] H; eauto|]. intros i s H. exists s. split; [by apply lookup_app_l_Some|done].
  - destruct (w_sets w !! i) as [s|] eqn:Hs; [|unfold add_modules; rewrite Hs; apply ext_refl].
    destruct (add_modules_spec w i ds s I Hs) as (w' & b & -> & I' & X & _). done.
  - unfold add. destruct (w_sets w !! i) as [s|] eqn:Hs; [|unfold add_module, add_modules; rewrite Hs; apply ext_refl].
    destruct (add_module_spec w i d s I Hs) as (w' & r & -> & I' & X & _). destruct r; [|done|done|done].
    eapply ext_trans; [done|by apply set_local_spec].
  - destruct (decide (i < length (w_sets w))) as [Hi|Hi].
    + destruct (chain_exists w I i Hi) as [l Hl]. destruct (get_package_spec ord find w n I Ho (S i) i l) as (w' & r & E & Hr); [lia|done|].
      simpl in E. rewrite E. simpl. destruct Hr as [(k & m & p & _ & _ & -> & _)|(_ & root & _ & Hf)]; [apply ext_refl|].
      unfold from_path in Hf. destruct (find n) as [[d local]|]; [by destruct Hf as (_ & ? & _)|destruct Hf as [-> _]; apply ext_refl].
    + rewrite lookup_ge_None_2 by lia. apply ext_refl.
Qed.
End clean.
