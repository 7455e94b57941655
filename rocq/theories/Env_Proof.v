From Verif Require Import Env_Model Env_Spec.
From Coq Require Import ZifyBool ZifyNat ZifyN Lia.
Open Scope list_scope.

Lemma ascii_compare_N a b : Ascii.compare a b = (N_of_ascii a ?= N_of_ascii b)%N.
Proof. reflexivity. Qed.
Lemma str_le_cons c s d t :
  str_le (String c s) (String d t) ↔
  (N_of_ascii c < N_of_ascii d)%N ∨ (c = d ∧ str_le s t).
Proof.
  unfold str_le, String.leb. cbn. rewrite ascii_compare_N.
  destruct (N.compare_spec (N_of_ascii c) (N_of_ascii d)) as [E|E|E].
  - assert (c = d) as -> by (rewrite <-(ascii_N_embedding c), <-(ascii_N_embedding d); by f_equal).
    split; [intros ?; right; done|]. intros [?|[_ ?]]; [lia|done].
  - split; [by left|done].
  - split; [done|]. intros [?|[-> _]]; lia.
Qed.
#[global] Instance str_le_trans : Transitive str_le.
Proof.
  intros a. induction a as [|c a IH]; intros [|d b] [|e x] H1 H2; try done.
  apply str_le_cons in H1. apply str_le_cons in H2. apply str_le_cons.
  destruct H1 as [H1|[-> H1]], H2 as [H2|[<- H2]]; try (left; lia).
  right. split; [done|]. by eapply IH.
Qed.
#[global] Instance str_le_antisymm : AntiSymm (=) str_le.
Proof. intros a b. apply String.leb_antisym. Qed.
#[global] Instance str_le_total : Total str_le.
Proof. intros a b. apply String.leb_total. Qed.

Lemma sort_strings_perm ks : sort_strings ks ≡ₚ ks.
Proof. apply merge_sort_Permutation. Qed.
Lemma sort_strings_sorted ks : StronglySorted str_le (sort_strings ks).
Proof. apply StronglySorted_merge_sort; apply _. Qed.
Lemma sort_strings_eq ks ks' : ks ≡ₚ ks' → sort_strings ks = sort_strings ks'.
Proof.
  intros Hp. apply (Sorted_unique str_le).
  - apply Sorted_merge_sort, _.
  - apply Sorted_merge_sort, _.
  - by rewrite !sort_strings_perm.
Qed.

(** the address table *)
Lemma match_nodes_snoc ns n : match_nodes (ns ++ [n]) = match_node (match_nodes ns) n.
Proof. unfold match_nodes. by rewrite fold_left_app. Qed.

Lemma match_nodes_spec ns :
  (∀ a, is_Some (match_nodes ns !! a) ↔ mentioned ns a) ∧
  (∀ a c, match_nodes ns !! a = Some c → ac_service c = before_dot a) ∧
  (∀ a c k, match_nodes ns !! a = Some c → ac_bind c = Some k → CBind k a ∈ ns) ∧
  (∀ a c k, match_nodes ns !! a = Some c → ac_dial c = Some k → CDial k a ∈ ns) ∧
  (∀ a k, CBind k a ∈ ns → ∃ c k', match_nodes ns !! a = Some c ∧ ac_bind c = Some k') ∧
  (∀ a k, CDial k a ∈ ns → ∃ c k', match_nodes ns !! a = Some c ∧ ac_dial c = Some k').
Proof.
  induction ns as [|n ns IH] using rev_ind.
  - split_and!; unfold match_nodes; cbn; intros *.
    + rewrite lookup_empty. split; [by intros []|]. intros (n&?&?). set_solver.
    + by rewrite lookup_empty.
    + by rewrite lookup_empty.
    + by rewrite lookup_empty.
    + set_solver.
    + set_solver.
  - destruct IH as (I1&I2&I3&I4&I5&I6). rewrite match_nodes_snoc.
    assert (Hm : ∀ a, mentioned (ns ++ [n]) a ↔ mentioned ns a ∨ node_addr n = Some a).
    { intros a. unfold mentioned. split.
      - intros (x&Hx&Ha). apply elem_of_app in Hx as [Hx|Hx]; [left; eauto|].
        apply elem_of_list_singleton in Hx as ->. by right.
      - intros [(x&?&?)|?]; [exists x|exists n]; set_solver. }
    destruct n as [k a|k a|k].
    + assert (Hl : ∃ c0, match_node (match_nodes ns) (CBind k a) = <[a := c0]> (match_nodes ns) ∧ ac_bind c0 = Some k ∧
        ac_service c0 = before_dot a ∧ ac_dial c0 = match match_nodes ns !! a with Some c => ac_dial c | None => None end).
      { cbn [match_node]. destruct (match_nodes ns !! a) as [c|] eqn:E; eexists; split_and!; try done.
        cbn. by eapply I2. }
      destruct Hl as (c0&->&Hb&Hs&Hd). split_and!.
      * intros x. rewrite Hm, lookup_insert_is_Some', I1. cbn. split; intros [?|?]; auto; [right; congruence|left; congruence].
      * intros x c [[-> <-]|[? ?]]%lookup_insert_Some; [done|by eapply I2].
      * intros x c y [[-> <-]|[? Hx]]%lookup_insert_Some Hy; [|rewrite elem_of_app; left; by eapply I3].
        assert (y = k) as -> by congruence. set_solver.
      * intros x c y [[-> <-]|[? Hx]]%lookup_insert_Some Hy; [|rewrite elem_of_app; left; by eapply I4].
        rewrite Hd in Hy. destruct (match_nodes ns !! x) as [c|] eqn:E; [|done].
        rewrite elem_of_app. left. by eapply I4.
      * intros x y Hy. destruct (decide (x = a)) as [->|Hne].
        -- exists c0, k. by rewrite lookup_insert.
        -- rewrite lookup_insert_ne by done. apply (I5 _ y).
           apply elem_of_app in Hy as [?|Hy]; [done|]. apply elem_of_list_singleton in Hy. congruence.
      * intros x y Hy. apply elem_of_app in Hy as [Hy|Hy]; [|by apply elem_of_list_singleton in Hy].
        destruct (I6 _ _ Hy) as (c&k'&E&?). destruct (decide (x = a)) as [->|Hne].
        -- exists c0, k'. rewrite lookup_insert. rewrite Hd, E. done.
        -- rewrite lookup_insert_ne by done. eauto.
    + assert (Hl : ∃ c0, match_node (match_nodes ns) (CDial k a) = <[a := c0]> (match_nodes ns) ∧ ac_dial c0 = Some k ∧
        ac_service c0 = before_dot a ∧ ac_bind c0 = match match_nodes ns !! a with Some c => ac_bind c | None => None end).
      { cbn [match_node]. destruct (match_nodes ns !! a) as [c|] eqn:E; eexists; split_and!; try done.
        cbn. by eapply I2. }
      destruct Hl as (c0&->&Hb&Hs&Hd). split_and!.
      * intros x. rewrite Hm, lookup_insert_is_Some', I1. cbn. split; intros [?|?]; auto; [right; congruence|left; congruence].
      * intros x c [[-> <-]|[? ?]]%lookup_insert_Some; [done|by eapply I2].
      * intros x c y [[-> <-]|[? Hx]]%lookup_insert_Some Hy; [|rewrite elem_of_app; left; by eapply I3].
        rewrite Hd in Hy. destruct (match_nodes ns !! x) as [c|] eqn:E; [|done].
        rewrite elem_of_app. left. by eapply I3.
      * intros x c y [[-> <-]|[? Hx]]%lookup_insert_Some Hy; [|rewrite elem_of_app; left; by eapply I4].
        assert (y = k) as -> by congruence. set_solver.
      * intros x y Hy. apply elem_of_app in Hy as [Hy|Hy]; [|by apply elem_of_list_singleton in Hy].
        destruct (I5 _ _ Hy) as (c&k'&E&?). destruct (decide (x = a)) as [->|Hne].
        -- exists c0, k'. rewrite lookup_insert. rewrite Hd, E. done.
        -- rewrite lookup_insert_ne by done. eauto.
      * intros x y Hy. destruct (decide (x = a)) as [->|Hne].
        -- exists c0, k. by rewrite lookup_insert.
        -- rewrite lookup_insert_ne by done. apply (I6 _ y).
           apply elem_of_app in Hy as [?|Hy]; [done|]. apply elem_of_list_singleton in Hy. congruence.
    + split_and!.
      * intros x. rewrite Hm, I1. cbn. split; [auto|]. by intros [?|?].
      * done.
      * intros. rewrite elem_of_app. left. by eapply I3.
      * intros. rewrite elem_of_app. left. by eapply I4.
      * intros x y Hy. apply (I5 _ y). apply elem_of_app in Hy as [?|Hy]; [done|]. by apply elem_of_list_singleton in Hy.
      * intros x y Hy. apply (I6 _ y). apply elem_of_app in Hy as [?|Hy]; [done|]. by apply elem_of_list_singleton in Hy.
Qed.

(** the lines *)
Lemma gen_lines_elem b m ks port l :
  (port < 65536)%N →
  l ∈ gen_lines b m ks port ↔
  ∃ i k c, ks !! i = Some k ∧ m !! k = Some c ∧ l ∈ addr_lines b (port_at port i) c.
Proof.
  revert port. induction ks as [|k ks IH]; intros port Hp; cbn [gen_lines].
  - split; [set_solver|]. intros (i&k&c&?&_). by rewrite lookup_nil in *.
  - rewrite elem_of_app, IH by (apply N.mod_lt; lia).
    assert (He : ∀ i, port_at ((port + 1) mod 65536) i = port_at port (S i)).
    { intros i. unfold port_at. rewrite N.add_mod_idemp_l by lia. f_equal. lia. }
    assert (H0 : port_at port 0 = port).
    { unfold port_at. rewrite N.add_0_r. by apply N.mod_small. }
    split.
    + intros [H|(i&x&c&Hi&Hx&Hl)].
      * destruct (m !! k) as [c|] eqn:E; [|set_solver]. exists 0, k, c. by rewrite H0.
      * exists (S i), x, c. by rewrite <-He.
    + intros ([|i]&x&c&Hi&Hx&Hl).
      * left. cbn in Hi. injection Hi as ->. rewrite Hx. by rewrite H0 in Hl.
      * right. exists i, x, c. by rewrite He.
Qed.

(** sourcing *)
Lemma source_snoc ls l : source (ls ++ [l]) = <[el_var l := (el_host l, el_port l)]> (source ls).
Proof. unfold source. by rewrite fold_left_app. Qed.
Lemma source_elem ls v h p : source ls !! v = Some (h, p) → Eline v h p ∈ ls.
Proof.
  induction ls as [|l ls IH] using rev_ind; [unfold source; cbn; by rewrite lookup_empty|].
  rewrite source_snoc. intros [[<- E]|[? ?]]%lookup_insert_Some; rewrite elem_of_app.
  - right. apply elem_of_list_singleton. injection E as <- <-. by destruct l.
  - left. auto.
Qed.
Lemma source_unique ls l :
  l ∈ ls → (∀ l', l' ∈ ls → el_var l' = el_var l → l' = l) → source ls !! el_var l = Some (el_host l, el_port l).
Proof.
  induction ls as [|x ls IH] using rev_ind; [set_solver|].
  intros Hl Hu. rewrite source_snoc. destruct (decide (el_var x = el_var l)) as [E|E].
  - rewrite (Hu x) by set_solver. by rewrite lookup_insert.
  - rewrite lookup_insert_ne by done. apply IH; [|set_solver].
    apply elem_of_app in Hl as [?|Hl]; [done|]. apply elem_of_list_singleton in Hl. congruence.
Qed.


Lemma order_perm ns o o' : key_order ns o → key_order ns o' → o ≡ₚ o'.
Proof.
  intros [Hn Ho] [Hn' Ho']. apply NoDup_Permutation; [done..|]. intros x. by rewrite Ho, Ho'.
Qed.

Lemma line_origin ns order port b l :
  key_order ns order → (port < 65536)%N →
  l ∈ generate_env b (match_nodes ns) order port →
  ∃ i a k, sort_strings order !! i = Some a ∧ el_port l = port_at port i ∧ el_var l = EnvVar k ∧
    ((CBind k a ∈ ns ∧ el_host l = "0.0.0.0"%string) ∨ (CDial k a ∈ ns ∧ el_host l = host_for b a)).
Proof.
  intros Ho Hp. unfold generate_env. rewrite gen_lines_elem by done.
  intros (i&a&c&Hi&Hc&Hl). exists i, a.
  destruct (match_nodes_spec ns) as (I1&I2&I3&I4&_).
  unfold addr_lines in Hl. apply elem_of_app in Hl as [Hl|Hl].
  - destruct (ac_bind c) as [k|] eqn:E; [|set_solver]. apply elem_of_list_singleton in Hl as ->.
    exists k. split_and!; try done. left. split; [by eapply I3|done].
  - destruct (ac_dial c) as [k|] eqn:E; [|set_solver]. apply elem_of_list_singleton in Hl as ->.
    exists k. split_and!; try done. right. split; [by eapply I4|].
    cbn. unfold host_for. destruct b; [done|]. by eapply I2.
Qed.

Lemma bind_line ns order port b i a k :
  key_order ns order → one_each ns → (port < 65536)%N →
  sort_strings order !! i = Some a → CBind k a ∈ ns →
  Eline (EnvVar k) "0.0.0.0" (port_at port i) ∈ generate_env b (match_nodes ns) order port.
Proof.
  intros Ho [H1 _] Hp Hi Hk. destruct (match_nodes_spec ns) as (I1&I2&I3&I4&I5&_).
  destruct (I5 _ _ Hk) as (c&k'&Hc&Hb). apply gen_lines_elem; [done|].
  exists i, a, c. split_and!; [done..|]. unfold addr_lines. rewrite Hb.
  rewrite (H1 k k' a); [|done|by eapply I3]. set_solver.
Qed.
Lemma dial_line ns order port b i a k :
  key_order ns order → one_each ns → (port < 65536)%N →
  sort_strings order !! i = Some a → CDial k a ∈ ns →
  Eline (EnvVar k) (host_for b a) (port_at port i) ∈ generate_env b (match_nodes ns) order port.
Proof.
  intros Ho [_ H1] Hp Hi Hk. destruct (match_nodes_spec ns) as (I1&I2&I3&I4&_&I5).
  destruct (I5 _ _ Hk) as (c&k'&Hc&Hb). apply gen_lines_elem; [done|].
  exists i, a, c. split_and!; [done..|]. unfold addr_lines. rewrite Hb.
  rewrite (H1 k k' a); [|done|by eapply I4]. unfold host_for. rewrite (I2 _ _ Hc). set_solver.
Qed.

Lemma mentioned_rank ns order a :
  key_order ns order → mentioned ns a → ∃ i, sort_strings order !! i = Some a.
Proof.
  intros [_ Ho] Hm. apply elem_of_list_lookup. rewrite sort_strings_perm. by apply Ho.
Qed.

Lemma rank_unique ns order i j a :
  key_order ns order → sort_strings order !! i = Some a → sort_strings order !! j = Some a → i = j.
Proof. intros [Hn _]. apply NoDup_lookup. by rewrite sort_strings_perm. Qed.
Lemma source_line ns order port b k l :
  key_order ns order → vars_distinct ns → (port < 65536)%N →
  l ∈ generate_env b (match_nodes ns) order port → el_var l = EnvVar k →
  source (generate_env b (match_nodes ns) order port) !! EnvVar k = Some (el_host l, el_port l).
Proof.
  intros Ho Hv Hp Hl <-. apply source_unique; [done|].
  intros l' Hl' Heq.
  destruct (line_origin _ _ _ _ _ Ho Hp Hl) as (i&a&k1&Hi&Hpo&Hva&Hor).
  destruct (line_origin _ _ _ _ _ Ho Hp Hl') as (i'&a'&k2&Hi'&Hpo'&Hva'&Hor').
  rewrite Hva, Hva' in Heq.
  destruct l as [v h p], l' as [v' h' p']; cbn in *; subst.
  destruct Hor as [[Hn ->]|[Hn ->]], Hor' as [[Hn' ->]|[Hn' ->]];
    specialize (Hv _ _ k2 k1 Hn' Hn eq_refl eq_refl Heq); simplify_eq;
    (rewrite (rank_unique _ _ _ _ _ Ho Hi Hi'); by rewrite ?Heq).
Qed.

Theorem env_assignment ns order1 order2 port :
  key_order ns order1 → key_order ns order2 → one_each ns → vars_distinct ns → (port < 65536)%N →
  ∃ rank : string → nat,
    (∀ a a', mentioned ns a → mentioned ns a' → (rank a ≤ rank a' ↔ str_le a a')) ∧
    (∀ a, mentioned ns a → rank a < length order1) ∧
    let '(lo, gl) := generate_env_files ns order1 order2 port in
    ∀ a,
      (∀ k, CBind k a ∈ ns → source lo !! EnvVar k = Some ("0.0.0.0"%string, port_at port (rank a)) ∧
                             source gl !! EnvVar k = Some ("0.0.0.0"%string, port_at port (rank a))) ∧
      (∀ k, CDial k a ∈ ns → source lo !! EnvVar k = Some ("localhost"%string, port_at port (rank a)) ∧
                             source gl !! EnvVar k = Some (before_dot a, port_at port (rank a))).
Proof.
  intros Ho1 Ho2 Hone Hv Hp.
  pose proof (sort_strings_eq _ _ (order_perm _ _ _ Ho1 Ho2)) as Hs.
  set (idx a := match list_find (λ x, x = a) (sort_strings order1) with Some (i, _) => i | None => 0 end).
  assert (Hidx : ∀ a, mentioned ns a → sort_strings order1 !! idx a = Some a).
  { intros a Hm. destruct (mentioned_rank _ _ _ Ho1 Hm) as [i Hi]. unfold idx.
    destruct (list_find (λ x, x = a) (sort_strings order1)) as [[j y]|] eqn:E.
    - apply list_find_Some in E as (E&->&_). done.
    - apply list_find_None in E. rewrite Forall_lookup in E. by destruct (E _ _ Hi). }
  exists idx. split_and!.
  - intros a a' Hm Hm'. pose proof (Hidx _ Hm) as Ha. pose proof (Hidx _ Hm') as Ha'.
    pose proof (sort_strings_sorted order1) as Hss.
    split.
    + intros Hle. destruct (decide (idx a = idx a')) as [E|E].
      * rewrite E in Ha. replace a' with a by congruence. unfold str_le, String.leb.
        by destruct (String.leb_total a a).
      * revert Ha Ha' E Hle. generalize (idx a) (idx a'). revert Hss. generalize (sort_strings order1). clear.
        induction 1 as [|x l Hl IH Hx]; intros i j Hi Hj Hne Hle; [done|].
        destruct i as [|i], j as [|j]; try lia.
        -- cbn in *. simplify_eq. rewrite Forall_forall in Hx. apply Hx. by eapply elem_of_list_lookup_2.
        -- cbn in *. eapply IH; [done..|lia|lia].
    + intros Hle. destruct (decide (idx a ≤ idx a')) as [?|Hgt]; [done|]. exfalso.
      assert (str_le a' a).
      { revert Ha Ha' Hgt. generalize (idx a) (idx a'). revert Hss. generalize (sort_strings order1). clear.
        induction 1 as [|x l Hl IH Hx]; intros i j Hi Hj Hgt; [done|].
        destruct i as [|i], j as [|j]; try lia.
        -- cbn in *. simplify_eq. rewrite Forall_forall in Hx. apply Hx. by eapply elem_of_list_lookup_2.
        -- cbn in *. eapply IH; [done..|lia]. }
      assert (a = a') as -> by by apply (anti_symm str_le). lia.
  - intros a Hm. rewrite <-(sort_strings_perm order1). by eapply lookup_lt_Some, Hidx.
  - cbn. intros a. split; intros k Hk.
    + assert (Hi : sort_strings order1 !! idx a = Some a) by (apply Hidx; by eexists).
      split.
      * pose proof (bind_line _ _ port true _ _ _ Ho1 Hone Hp Hi Hk).
        by erewrite source_line; try done.
      * rewrite Hs in Hi. pose proof (bind_line _ _ port false _ _ _ Ho2 Hone Hp Hi Hk).
        by erewrite source_line; try done.
    + assert (Hi : sort_strings order1 !! idx a = Some a) by (apply Hidx; by eexists).
      split.
      * pose proof (dial_line _ _ port true _ _ _ Ho1 Hone Hp Hi Hk).
        by erewrite source_line; try done.
      * rewrite Hs in Hi. pose proof (dial_line _ _ port false _ _ _ Ho2 Hone Hp Hi Hk).
        by erewrite source_line; try done.
Qed.

Lemma port_at_inj port i j n :
  (n ≤ 65536)%N → (N.of_nat i < n)%N → (N.of_nat j < n)%N → port_at port i = port_at port j → i = j.
Proof.
  unfold port_at. intros Hn Hi Hj E.
  pose proof (N.div_mod (port + N.of_nat i) 65536 ltac:(lia)).
  pose proof (N.div_mod (port + N.of_nat j) 65536 ltac:(lia)).
  lia.
Qed.

(** every line comes from a node *)
Theorem env_no_extra ns order port b v h p :
  key_order ns order → (port < 65536)%N →
  source (generate_env b (match_nodes ns) order port) !! v = Some (h, p) →
  ∃ k a, EnvVar k = v ∧
    ((CBind k a ∈ ns ∧ h = "0.0.0.0"%string) ∨ (CDial k a ∈ ns ∧ h = host_for b a)).
Proof.
  intros Ho Hp Hl. apply source_elem in Hl.
  destruct (line_origin _ _ _ _ _ Ho Hp Hl) as (i&a&k&Hi&Hpo&Hva&Hor). cbn in *. eauto.
Qed.
