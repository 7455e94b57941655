(** * Proofs about workspaces *)
From Verif Require Import Workspace_Model Workspace_Spec.
Open Scope list_scope.
From Coq Require Import Lia.

(** What holds after any calls, failed ones and clashes included. *)
Record wwf (w : workspace) : Prop := WWF {
  ww_listed : ∀ d m, modules w !! d = Some m → module_dirs w !! m = Some d }.

Lemma wwf_empty : wwf empty_workspace.
Proof. split. intros d m. cbn. by rewrite lookup_empty. Qed.

Lemma wstep_wwf w o : wwf w → wwf (wstep w o).1.
Proof.
  intros [W]. destruct o as [n mk wr|s src mk cp]; cbn.
  - unfold create_module. destruct (module_dirs w !! n) as [d|] eqn:E; [done|]. destruct mk; [|done]. split; cbn. intros d m.
    destruct (decide (d = last_comp n)) as [->|N].
    + rewrite lookup_insert. intros [= <-]. by rewrite lookup_insert.
    + rewrite lookup_insert_ne by done. intros H. apply W in H. rewrite lookup_insert_ne; [done|congruence].
  - unfold add_local_module. destruct src as [mf|]; [|done].
    destruct (module_dirs w !! mf_path mf) as [s'|] eqn:E; [by case_bool_decide|]. cbn.
    destruct (modules w !! s) as [p|] eqn:E2.
    + assert (p ≠ mf_path mf) by (intros ->; apply W in E2; congruence). rewrite bool_decide_eq_false_2 by done. split; cbn.
      intros d m H'. apply W in H'. rewrite lookup_insert_ne; [done|congruence].
    + assert (∀ dk, wwf (Workspace (<[mf_path mf := s]> (module_dirs w)) (<[s := mf_path mf]> (modules w)) (generated w) dk (vis w))) as G.
      { intros dk. split; cbn. intros d m. destruct (decide (d = s)) as [->|N].
        - rewrite lookup_insert. intros [= <-]. by rewrite lookup_insert.
        - rewrite lookup_insert_ne by done. intros H. apply W in H. rewrite lookup_insert_ne; [done|congruence]. }
      destruct mk; cbn; apply G.
Qed.

Lemma wrun_cons w o r : wrun w (o :: r) = ((wrun (wstep w o).1 r).1, (wstep w o).2 :: (wrun (wstep w o).1 r).2).
Proof. cbn. destruct (wstep w o) as [w1 x]. cbn. by destruct (wrun w1 r). Qed.
Lemma wrun_app os1 : ∀ w os2, wrun w (os1 ++ os2) = ((wrun (wrun w os1).1 os2).1, (wrun w os1).2 ++ (wrun (wrun w os1).1 os2).2).
Proof.
  induction os1 as [|o r IH]; intros w os2; [cbn; by destruct (wrun w os2)|].
  cbn [app]. rewrite !wrun_cons, IH. done.
Qed.
Lemma wrun_wwf os : ∀ w, wwf w → wwf (wrun w os).1.
Proof. induction os as [|o r IH]; intros w W; [done|]. rewrite wrun_cons. cbn. by apply IH, wstep_wwf. Qed.

(** What holds as long as no call failed and no generated module clashed. *)
Record wgood (os : list wop) (w : workspace) : Prop := WGood {
  g_both : ∀ d m, modules w !! d = Some m ↔ module_dirs w !! m = Some d;
  g_disk : ∀ d m, modules w !! d = Some m → ∃ mf, disk w !! d = Some mf ∧ mf_path mf = m;
  g_only : ∀ d, is_Some (modules w !! d) → ∃ o, o ∈ os ∧ op_dir o = d }.

Lemma wgood_empty : wgood [] empty_workspace.
Proof.
  split; cbn; intros d.
  - intros m. by rewrite !lookup_empty.
  - intros m. by rewrite lookup_empty.
  - rewrite lookup_empty. by intros [? ?].
Qed.

Lemma wgood_insert os w o d m gens mf v :
  wgood os w → modules w !! d = None → module_dirs w !! m = None → mf_path mf = m → op_dir o = d →
  wgood (os ++ [o]) (Workspace (<[m := d]> (module_dirs w)) (<[d := m]> (modules w)) gens (<[d := mf]> (disk w)) v).
Proof.
  intros [G1 G2 G3] N1 N2 EP EO. split; cbn.
  - intros d' m'. destruct (decide (d' = d)) as [->|Nd], (decide (m' = m)) as [->|Nm].
    + by rewrite !lookup_insert.
    + rewrite lookup_insert, lookup_insert_ne by done. rewrite <-G1. split; congruence.
    + rewrite lookup_insert, lookup_insert_ne by done. rewrite G1. split; congruence.
    + by rewrite !lookup_insert_ne.
  - intros d' m'. destruct (decide (d' = d)) as [->|Nd].
    + rewrite !lookup_insert. intros [= <-]. eauto.
    + rewrite !lookup_insert_ne by done. apply G2.
  - intros d'. destruct (decide (d' = d)) as [->|Nd].
    + intros _. exists o. split; [apply elem_of_app; right; left|done].
    + rewrite lookup_insert_ne by done. intros (o' & ? & ?)%G3. exists o'. split; [apply elem_of_app; by left|done].
Qed.
Lemma wgood_weaken os o w : wgood os w → wgood (os ++ [o]) w.
Proof. intros [G1 G2 G3]. split; try done. intros d (o' & ? & ?)%G3. exists o'. split; [apply elem_of_app; by left|done]. Qed.

Lemma wstep_good os w o : wgood os w → is_Some (wstep w o).2 →
  (∀ n a b, o = WCreate n a b → ∀ o', o' ∈ os → op_dir o' ≠ last_comp n) →
  wgood (os ++ [o]) (wstep w o).1 ∧ ∃ m d, op_module o = Some m ∧ d = op_dir o ∧ (wstep w o).2 = Some d ∧ module_dirs (wstep w o).1 !! m = Some d.
Proof.
  intros G S C. destruct o as [n mk wr|s src mk cp]; cbn in *.
  - unfold create_module in *. destruct (module_dirs w !! n) as [d|] eqn:E; [by destruct S|].
    destruct mk; [|by destruct S]. destruct wr; [|by destruct S]. cbn. split.
    + apply (wgood_insert _ _ (WCreate n true true)); try done.
      destruct (modules w !! last_comp n) as [m|] eqn:E2; [exfalso|done].
      destruct (g_only _ _ G (last_comp n)) as (o' & Ho & Hd); [eauto|]. by eapply C.
    + exists n, (last_comp n). by rewrite lookup_insert.
  - unfold add_local_module in *. destruct src as [mf|]; [|by destruct S]. cbn.
    destruct (module_dirs w !! mf_path mf) as [s'|] eqn:E.
    + case_bool_decide as B; [|by destruct S]. subst s'. cbn. split; [by apply wgood_weaken|]. by exists (mf_path mf), s.
    + cbn in *. destruct (modules w !! s) as [p|] eqn:E2.
      * assert (p ≠ mf_path mf) as N by (intros ->; apply (g_both _ _ G) in E2; congruence).
        rewrite bool_decide_eq_false_2 in S by done. by destruct S.
      * destruct mk; [|by destruct S]. destruct cp; [|by destruct S]. cbn. split.
        -- by apply (wgood_insert _ _ (WLocal s (Some mf) true true)).
        -- exists (mf_path mf), s. by rewrite lookup_insert.
Qed.

Lemma wrun_good os : all_succeeded (wrun empty_workspace os).2 → no_clash os → wgood os (wrun empty_workspace os).1.
Proof.
  induction os as [|o os IH] using rev_ind; intros A C; [apply wgood_empty|].
  rewrite wrun_app in A |- *. cbn [fst snd] in A |- *. rewrite wrun_cons in A |- *. cbn in A |- *.
  apply wstep_good.
  - apply IH.
    + intros x Hx. apply A. apply elem_of_app. by left.
    + intros i j o' n a b L H1 H2. eapply (C i j); [done|by apply lookup_app_l_Some|by apply lookup_app_l_Some].
  - apply A. apply elem_of_app. right. left.
  - intros n a b -> o' Ho. apply elem_of_list_lookup in Ho as [i Hi]. eapply (C i (length os)).
    + by apply lookup_lt_Some in Hi.
    + by apply lookup_app_l_Some.
    + rewrite lookup_app_r, Nat.sub_diag by lia. done.
Qed.

Lemma wrun_op os o : all_succeeded (wrun empty_workspace os).2 → no_clash os → o ∈ os →
  ∃ m, op_module o = Some m ∧ module_dirs (wrun empty_workspace os).1 !! m = Some (op_dir o).
Proof.
  induction os as [|o' os IH] using rev_ind; intros A C Ho; [by apply elem_of_nil in Ho|].
  assert (all_succeeded (wrun empty_workspace os).2) as A'.
  { intros x Hx. apply A. rewrite wrun_app. cbn. apply elem_of_app. by left. }
  assert (no_clash os) as C'.
  { intros i j o1 n a b L H1 H2. eapply (C i j); [done|by apply lookup_app_l_Some|by apply lookup_app_l_Some]. }
  assert (is_Some (wstep (wrun empty_workspace os).1 o').2) as S.
  { apply A. rewrite wrun_app, wrun_cons. cbn. apply elem_of_app. right. left. }
  assert (∀ n a b, o' = WCreate n a b → ∀ o1, o1 ∈ os → op_dir o1 ≠ last_comp n) as CC.
  { intros n a b -> o1 Ho1. apply elem_of_list_lookup in Ho1 as [i Hi]. eapply (C i (length os)).
    - by apply lookup_lt_Some in Hi.
    - by apply lookup_app_l_Some.
    - rewrite lookup_app_r, Nat.sub_diag by lia. done. }
  destruct (wstep_good os _ o' (wrun_good os A' C') S CC) as [_ (m & d & M1 & M2 & M3 & M4)].
  rewrite wrun_app, wrun_cons. cbn. apply elem_of_app in Ho as [Ho|Ho%elem_of_list_singleton].
  - destruct (IH A' C' Ho) as (m1 & Hm & Hd). exists m1. split; [done|].
    (* earlier entries stay *)
    destruct o' as [n mk wr|s src mk cp]; cbn in *.
    + unfold create_module in *. destruct (module_dirs (wrun empty_workspace os).1 !! n) as [d'|] eqn:E; [done|].
      destruct mk; [|done]. cbn. rewrite lookup_insert_ne; [done|]. congruence.
    + unfold add_local_module in *. destruct src as [mf|]; [|done].
      destruct (module_dirs (wrun empty_workspace os).1 !! mf_path mf) as [s'|] eqn:E; [by case_bool_decide|]. cbn.
      destruct (modules (wrun empty_workspace os).1 !! s) as [p|]; [case_bool_decide; cbn; rewrite lookup_insert_ne; congruence|].
      destruct mk; cbn; (rewrite lookup_insert_ne; [done|congruence]).
  - subst o'. exists m. subst d. done.
Qed.

(** ** Finish *)
Section finish.
  Context (readable ok : string → bool).

  Lemma add_replaces_spec dk name order : (∀ d m, (d, m) ∈ order → readable d = true ∧ ∃ mf, dk !! d = Some mf ∧ mf_path mf = m) →
    NoDup order.*2 →
    ∀ acc, ∃ rs, add_replaces readable dk name order acc = Some rs ∧
      ∀ m, (∀ d, (d, m) ∈ order → m ≠ name → rs !! m = Some ("../" +:+ d)) ∧
           ((m = name ∨ m ∉ order.*2) → rs !! m = acc !! m).
  Proof.
    induction order as [|[d m] r IH]; intros H N acc.
    - exists acc. split; [done|]. intros m. split; [|done]. intros d Hd. by apply elem_of_nil in Hd.
    - cbn in N. apply NoDup_cons in N as [N1 N2].
      assert (∀ d m, (d, m) ∈ r → readable d = true ∧ ∃ mf, dk !! d = Some mf ∧ mf_path mf = m) as H'.
      { intros d' m' Hd. apply H. by right. }
      cbn. case_bool_decide as B.
      + subst m. destruct (IH H' N2 acc) as (rs & E & S). exists rs. split; [done|]. intros m. destruct (S m) as [S1 S2]. split.
        * intros d'. rewrite elem_of_cons. intros [[= -> ->]|?] ?; [done|by apply S1].
        * rewrite elem_of_cons. intros [->|Hn]; apply S2; [by left|]. destruct (decide (m = name)); [by left|right; tauto].
      + destruct (H d m) as (R & mf & D & P); [left|]. rewrite R, D.
        destruct (IH H' N2 (<[mf_path mf := "../" +:+ d]> acc)) as (rs & E & S). exists rs. split; [done|]. rewrite P in S.
        intros m'. destruct (S m') as [S1 S2]. split.
        * intros d'. rewrite elem_of_cons. intros [[= -> ->]|?] ?; [|by apply S1].
          rewrite S2 by (by right). by rewrite lookup_insert.
        * rewrite elem_of_cons. intros Hn. destruct (decide (m' = m)) as [->|Nm]; [destruct Hn as [?|Hn]; [congruence|destruct Hn; by left]|].
          rewrite S2 by (destruct Hn as [?|Hn]; [by left|right; tauto]). by rewrite lookup_insert_ne.
  Qed.

  (** The invariant of the loop over the modules: paths stay, done ones have their replaces. *)
  Lemma finish_loop order todo : NoDup order.*1 → NoDup order.*2 → (∀ d, ok d = true) →
    todo `suffix_of` order →
    ∀ dk, (∀ d m, (d, m) ∈ order → readable d = true ∧ ∃ mf, dk !! d = Some mf ∧ mf_path mf = m) →
    let dk' := fold_left (λ dk dm, default dk (update_modfile readable ok order dk dm.1 dm.2)) todo dk in
    ∀ d m mf, (d, m) ∈ order → dk !! d = Some mf →
      ∃ mf', dk' !! d = Some mf' ∧ mf_path mf' = m ∧ mf_require mf' = mf_require mf ∧
        ((d, m) ∉ todo → mf' = mf) ∧
        ((d, m) ∈ todo → ∀ m', (∀ d', (d', m') ∈ order → m' ≠ m → mf_replace mf' !! m' = Some ("../" +:+ d')) ∧
                               ((m' = m ∨ m' ∉ order.*2) → mf_replace mf' !! m' = mf_replace mf !! m')).
  Proof.
    intros ND1 ND2 OK. induction todo as [|[d0 m0] todo IH]; intros SUF dk H; cbn zeta.
    - cbn. intros d m mf Hd D. destruct (H d m Hd) as (_ & mf' & D' & P). rewrite D in D'. injection D' as <-.
      exists mf. split_and!; try done. intros X. by apply elem_of_nil in X.
    - assert ((d0, m0) ∈ order) as In0 by (destruct SUF as [k ->]; apply elem_of_app; right; left).
      assert (todo `suffix_of` order) as SUF' by (destruct SUF as [k ->]; exists (k ++ [(d0, m0)]); by rewrite <-app_assoc).
      assert (NoDup ((d0, m0) :: todo).*1) as NDt.
      { destruct SUF as [k Ek]. rewrite Ek, fmap_app in ND1. by apply NoDup_app in ND1 as (_ & _ & ?). }
      destruct (H d0 m0 In0) as (R0 & mf0 & D0 & P0).
      destruct (add_replaces_spec dk m0 order H ND2 (mf_replace mf0)) as (rs & ER & RS).
      assert (update_modfile readable ok order dk d0 m0 = Some (<[d0 := Modfile (mf_path mf0) rs (mf_require mf0)]> dk)) as EU.
      { unfold update_modfile. by rewrite R0, D0, ER, OK. }
      cbn [fold_left fst snd]. rewrite EU. cbn [default].
      assert (∀ d m, (d, m) ∈ order → readable d = true ∧ ∃ mf, (<[d0 := Modfile (mf_path mf0) rs (mf_require mf0)]> dk) !! d = Some mf ∧ mf_path mf = m) as H'.
      { intros d m Hd. destruct (H d m Hd) as (R & mf & D & P). split; [done|]. destruct (decide (d = d0)) as [->|N].
        - rewrite lookup_insert. eexists. split; [done|]. cbn. congruence.
        - rewrite lookup_insert_ne by done. eauto. }
      specialize (IH SUF' _ H'). cbn zeta in IH. intros d m mf Hd D. destruct (decide (d = d0)) as [->|N].
      + rewrite D0 in D. injection D as <-.
        assert (m = m0) as -> by (destruct (H d0 m Hd) as (_ & mf' & D' & P'); congruence).
        destruct (IH d0 m0 _ In0 (lookup_insert _ _ _)) as (mf' & L1 & L2 & L3 & L4 & _).
        assert ((d0, m0) ∉ todo) as NT.
        { intros X. cbn in NDt. apply NoDup_cons in NDt as [NDt _]. apply NDt. by apply (elem_of_list_fmap_1 fst) in X. }
        specialize (L4 NT). subst mf'. eexists. split_and!; [exact L1|done|done| |].
        * intros X. destruct X. left.
        * intros _ m'. cbn [mf_replace]. apply RS.
      + destruct (IH d m mf Hd) as (mf' & L1 & L2 & L3 & L4 & L5); [by rewrite lookup_insert_ne|].
        exists mf'. split_and!; [done|done|done| |].
        * intros X. apply L4. intros Y. apply X. by right.
        * intros [[= -> ->]|X]%elem_of_cons; [done|by apply L5].
  Qed.
End finish.
