(** * Proofs about the catalogue *)
From Verif Require Export Catalogue_Spec.
From stdpp Require Export list.
Set Default Proof Using "Type".

(** ** Splitting by commas *)
Lemma plain_cons c s : plain (String c s) → c ≠ Ascii.ascii_of_nat 44 ∧ plain s.
Proof. intros H. split; [intros ->; by apply (H 0)|]. intros j. apply (H (S j)). Qed.
Lemma split_plain s : plain s → commas s = [s].
Proof.
  induction s as [|c s IH]; [done|]. intros [Hc Hs]%plain_cons. simpl. destruct (decide (c = Ascii.ascii_of_nat 44)) as [E|_]; [by destruct Hc|]. by rewrite IH.
Qed.
Lemma split_app s r : plain s → commas (s +:+ "," +:+ r) = s :: commas r.
Proof.
  induction s as [|c s IH]; intros Hp; [done|]. apply plain_cons in Hp as [Hc Hs].
  change (commas (String c (s +:+ "," +:+ r)) = String c s :: commas r). cbn [commas].
  destruct (decide (c = Ascii.ascii_of_nat 44)) as [E|_]; [by destruct Hc|]. by rewrite IH.
Qed.
Lemma split_concat l : l ≠ [] → Forall plain l → commas (String.concat "," l) = l.
Proof.
  intros Hne Hp. induction Hp as [|x l Hx Hl IH]; [done|]. destruct l as [|y l]; [by apply split_plain|].
  change (commas (x +:+ "," +:+ String.concat "," (y :: l)) = x :: y :: l). rewrite split_app by done. by rewrite IH.
Qed.

(** ** Queries *)
Lemma rows_elem d s info a b :
  (s, info, a, b) ∈ rows d ↔ (s, info) ∈ d_socks d ∧ (∃ i, (s, i) ∈ d_links d ∧ (i, a) ∈ d_tags d) ∧ (∃ i, (s, i) ∈ d_links d ∧ (i, b) ∈ d_tags d).
Proof.
  unfold rows. split.
  - intros ([s1 i1]&H&Hs)%elem_of_list_bind. apply elem_of_list_bind in H as ([l1 l2]&H&Hl). apply elem_of_list_bind in H as ([a1 a2]&H&Ha).
    apply elem_of_list_bind in H as ([m1 m2]&H&Hm). apply elem_of_list_bind in H as ([b1 b2]&H&Hb).
    apply elem_of_list_singleton in H. apply elem_of_list_filter in Hl as [? Hl]. apply elem_of_list_filter in Ha as [? Ha].
    apply elem_of_list_filter in Hm as [? Hm]. apply elem_of_list_filter in Hb as [? Hb]. simplify_eq/=. eauto 10.
  - intros (Hs & (i & Hi & Ha) & (j & Hj & Hb)). apply elem_of_list_bind. exists (s, info). split; [|done].
    apply elem_of_list_bind. exists (s, i). split; [|by apply elem_of_list_filter]. apply elem_of_list_bind. exists (i, a). split; [|by apply elem_of_list_filter].
    apply elem_of_list_bind. exists (s, j). split; [|by apply elem_of_list_filter]. apply elem_of_list_bind. exists (j, b). split; [|by apply elem_of_list_filter].
    by apply elem_of_list_singleton.
Qed.
Definition tagged_d (d : db) (s n : string) : Prop := ∃ i, (s, i) ∈ d_links d ∧ (i, n) ∈ d_tags d.
Definition names_in (rs : list (string * string * string * string)) (s : string) : list string :=
  remove_dups ((λ r, r.1.2) <$> filter (λ r, r.1.1.1 = s) rs).
Lemma names_in_elem rs s n : n ∈ names_in rs s ↔ ∃ info b, (s, info, n, b) ∈ rs.
Proof.
  unfold names_in. rewrite elem_of_remove_dups, elem_of_list_fmap. split.
  - intros ([[[s' info] n'] b]&->&H). apply elem_of_list_filter in H as [? H]. simplify_eq/=. eauto.
  - intros (info & b & H). exists (s, info, n, b). split; [done|]. by apply elem_of_list_filter.
Qed.
Lemma group_elem rs s info ns : (s, info, ns) ∈ group rs ↔ ns = commas (String.concat "," (names_in rs s)) ∧ ∃ a b, (s, info, a, b) ∈ rs.
Proof.
  unfold group. rewrite elem_of_list_fmap. split.
  - intros ([s' info']&E&H). simpl in E. injection E as -> -> ->. split; [done|]. apply elem_of_remove_dups, elem_of_list_fmap in H as ([[[s1 i1] a] b]&E&H).
    simplify_eq/=. eauto.
  - intros (-> & a & b & H). exists (s, info). split; [done|]. apply elem_of_remove_dups, elem_of_list_fmap. by exists (s, info, a, b).
Qed.
Lemma group_ids rs : (group rs).*1 = remove_dups ((λ r, (r.1.1.1, r.1.1.2)) <$> rs).
Proof. unfold group. rewrite <-list_fmap_compose. rewrite <-(list_fmap_id (remove_dups _)) at 2. apply list_fmap_ext. by intros j [s info] _. Qed.
(** Pairs of which the second part is determined by the first *)
Lemma nodup_fst (l : list (string * string)) : NoDup l → (∀ a b c, (a, b) ∈ l → (a, c) ∈ l → b = c) → NoDup l.*1.
Proof.
  induction 1 as [|[a b] l Hx Hn IH]; intros Hf; simpl; constructor.
  - intros [[a' c] [E H]]%elem_of_list_fmap. simpl in E. subst a'. apply Hx. rewrite (Hf a b c); [done|by left|by right].
  - apply IH. intros a' b' c' H1 H2. eapply Hf; right; eassumption.
Qed.
Lemma key_fun (l : list (string * string)) a b c : NoDup l.*1 → (a, b) ∈ l → (a, c) ∈ l → b = c.
Proof.
  intros Hn [j1 H1]%elem_of_list_lookup [j2 H2]%elem_of_list_lookup.
  assert (j1 = j2) as ->; [|congruence]. apply (NoDup_lookup l.*1 j1 j2 a Hn); rewrite list_lookup_fmap; [by rewrite H1|by rewrite H2].
Qed.
Lemma names_ok d rs s info ns (P : string → string → Prop) : Forall (λ t, plain t.2) (d_tags d) →
  (∀ s info a b, (s, info, a, b) ∈ rs ↔ (s, info) ∈ d_socks d ∧ tagged_d d s a ∧ tagged_d d s b ∧ P s b) →
  (s, info, ns) ∈ group rs → NoDup ns ∧ ∀ n, n ∈ ns ↔ tagged_d d s n.
Proof.
  intros Hp Hrs (-> & a & b & H)%group_elem.
  assert (Hn : ∀ n, n ∈ names_in rs s ↔ tagged_d d s n).
  { intros n. rewrite names_in_elem. split.
    - intros (i' & b' & H'). apply Hrs in H'. naive_solver.
    - intros Ht. exists info, b. apply Hrs. apply Hrs in H. naive_solver. }
  assert (commas (String.concat "," (names_in rs s)) = names_in rs s) as ->.
  { apply split_concat.
    - intros E. assert (a ∈ names_in rs s) as Ha by (apply names_in_elem; eauto). rewrite E in Ha. by apply elem_of_nil in Ha.
    - apply Forall_forall. intros n (i & _ & Hi)%Hn. rewrite Forall_forall in Hp. apply (Hp _ Hi). }
  split; [apply NoDup_remove_dups|done].
Qed.
Lemma list_rows d tags s info a b :
  (s, info, a, b) ∈ filter (λ r, wanted tags r.2) (rows d) ↔ (s, info) ∈ d_socks d ∧ tagged_d d s a ∧ tagged_d d s b ∧ wanted tags b.
Proof. rewrite elem_of_list_filter, rows_elem. simpl. unfold tagged_d. naive_solver. Qed.
Lemma list_in d tags order s info : (∃ ns, (s, info, ns) ∈ list_all tags order d) ↔ (s, info) ∈ d_socks d ∧ ∃ n, tagged_d d s n ∧ wanted tags n.
Proof.
  unfold list_all. split.
  - intros [ns (_ & a & b & H)%group_elem]. apply list_rows in H. naive_solver.
  - intros (Hs & n & Hn & Hw). eexists. apply group_elem. split; [done|]. exists n, n. by apply list_rows.
Qed.
Lemma list_nodup d tags order : NoDup (d_socks d).*1 → NoDup (list_all tags order d).*1.*1.
Proof.
  intros Hk. unfold list_all. rewrite group_ids. apply nodup_fst; [apply NoDup_remove_dups|]. intros a b c H1 H2.
  apply elem_of_remove_dups, elem_of_list_fmap in H1 as ([[[s1 i1] a1] b1]&E1&H1). apply elem_of_remove_dups, elem_of_list_fmap in H2 as ([[[s2 i2] a2] b2]&E2&H2).
  simplify_eq/=. apply list_rows in H1 as [H1 _]. apply list_rows in H2 as [H2 _]. by eapply key_fun.
Qed.
Lemma count_list d tags order : NoDup (d_socks d).*1 → q_count tags d = Num (length (list_all tags order d)).
Proof.
  intros Hk. unfold q_count. f_equal. trans (length (list_all tags order d).*1.*1); [|by rewrite !fmap_length]. apply Permutation_length, NoDup_Permutation.
  - apply NoDup_remove_dups.
  - by apply list_nodup.
  - intros s. rewrite elem_of_remove_dups. split.
    + intros ([s1 i1]&H&Hs)%elem_of_list_bind. apply elem_of_list_bind in H as ([l1 l2]&H&Hl). apply elem_of_list_bind in H as ([b1 b2]&H&Hb).
      apply elem_of_list_singleton in H. apply elem_of_list_filter in Hl as [? Hl]. apply elem_of_list_filter in Hb as [[? ?] Hb]. simplify_eq/=.
      destruct (proj2 (list_in d tags order s1 i1)) as [ns Hns].
      { split; [done|]. exists b2. split; [by exists l2|done]. }
      apply elem_of_list_fmap. exists (s1, i1). split; [done|]. apply elem_of_list_fmap. by exists (s1, i1, ns).
    + intros ([s1 i1]&->&H)%elem_of_list_fmap. apply elem_of_list_fmap in H as ([[s2 i2] ns]&E&H). simplify_eq/=.
      destruct (proj1 (list_in d tags order s2 i2)) as (Hs & n & (i & Hl & Ht) & Hw); [by eexists|].
      apply elem_of_list_bind. exists (s2, i2). split; [|done]. apply elem_of_list_bind. exists (s2, i). split; [|by apply elem_of_list_filter].
      apply elem_of_list_bind. exists (i, n). split; [by apply elem_of_list_singleton|by apply elem_of_list_filter].
Qed.
Lemma list_names d tags order s info ns : Forall (λ t, plain t.2) (d_tags d) → (s, info, ns) ∈ list_all tags order d → NoDup ns ∧ ∀ n, n ∈ ns ↔ tagged_d d s n.
Proof. intros Hp. apply (names_ok d _ s info ns (λ _ b, wanted tags b) Hp). intros. apply list_rows. Qed.
Lemma get_rows d id s info a b :
  (s, info, a, b) ∈ filter (λ r, r.1.1.1 = id) (rows d) ↔ (s, info) ∈ d_socks d ∧ tagged_d d s a ∧ tagged_d d s b ∧ s = id.
Proof. rewrite elem_of_list_filter, rows_elem. simpl. unfold tagged_d. naive_solver. Qed.
Lemma get_one d id s info ns : Forall (λ t, plain t.2) (d_tags d) → q_get id d = One (s, info, ns) →
  s = id ∧ (s, info) ∈ d_socks d ∧ (∃ n, tagged_d d s n) ∧ NoDup ns ∧ ∀ n, n ∈ ns ↔ tagged_d d s n.
Proof.
  intros Hp H. unfold q_get in H. destruct (group _) as [|x l] eqn:E; [done|]. injection H as ->.
  assert ((s, info, ns) ∈ group (filter (λ r, r.1.1.1 = id) (rows d))) as Hin by (rewrite E; by left).
  pose proof Hin as (_ & a & b & Hr)%group_elem. apply get_rows in Hr as (Hs & Ha & _ & ->). split; [done|]. split; [done|]. split; [by exists a|].
  apply (names_ok d _ id info ns (λ s _, s = id) Hp) in Hin; [done|]. intros. apply get_rows.
Qed.
Lemma get_found d id info n : (id, info) ∈ d_socks d → tagged_d d id n → ∃ x, q_get id d = One x.
Proof.
  intros Hs Ht. unfold q_get. destruct (group _) as [|x l] eqn:E; [|by eexists].
  assert ((id, info, commas (String.concat "," (names_in (filter (λ r, r.1.1.1 = id) (rows d)) id))) ∈ group (filter (λ r, r.1.1.1 = id) (rows d))) as H.
  { apply group_elem. split; [done|]. exists n, n. by apply get_rows. }
  rewrite E in H. by apply elem_of_nil in H.
Qed.

(** ** Pages *)
Lemma cut_page l page size : (0 < page)%nat → (0 < size)%nat → cut l (Z.of_nat page) (Z.of_nat size) = Some (take size (drop ((page - 1) * size) l)).
Proof.
  intros Hp Hs. unfold cut. destruct (Z.eqb_spec (Z.of_nat page) 0); [lia|]. destruct (Z.eqb_spec (Z.of_nat size) 0); [lia|]. simpl.
  replace (Z.of_nat page * Z.of_nat size - Z.of_nat size)%Z with (Z.of_nat ((page - 1) * size)) by (rewrite Nat2Z.inj_mul, Nat2Z.inj_sub by lia; lia).
  replace (Z.of_nat page * Z.of_nat size)%Z with (Z.of_nat ((page - 1) * size + size)) by (rewrite Nat2Z.inj_add, Nat2Z.inj_mul, Nat2Z.inj_sub by lia; lia).
  set (a := ((page - 1) * size)%nat). destruct (Z.ltb_spec (Z.of_nat (length l)) (Z.of_nat a)).
  - by rewrite drop_ge, take_nil by lia.
  - destruct (Z.ltb_spec (Z.of_nat a) 0); [lia|]. destruct (Z.ltb_spec (Z.min (Z.of_nat (a + size)) (Z.of_nat (length l))) (Z.of_nat a)); [lia|]. simpl. f_equal.
    rewrite Nat2Z.id. destruct (decide (a + size ≤ length l)%nat).
    + f_equal. lia.
    + rewrite !take_ge; [done|rewrite drop_length; lia|rewrite drop_length; lia].
Qed.

(** ** Where a call can be *)
Definition good_ids (d : db) (ids : list nat) (ns : list string) : Prop := Forall2 (λ i n, (i, n) ∈ d_tags d) ids ns.
Definition good_map (d : db) (m : gmap string nat) : Prop := ∀ n i, m !! n = Some i → (i, n) ∈ d_tags d.
Definition sid (id uuid : string) : string := if decide (id = "") then uuid else id.
Definition is_query (o : op) : bool := match o with List _ _ _ _ | Count _ | Get _ | Tags => true | _ => false end.
Inductive stage (d : db) : op → prog → Prop :=
  | s_start o : stage d o (program o)
  | s_delsock id u info tags : id ≠ "" → stage d (AddSock id u info tags) (DelSock id (put_sock id info tags))
  | s_put id u info tags : stage d (AddSock id u info tags) (put_sock (sid id u) info tags)
  | s_tags id u info tags : stage d (AddSock id u info tags) (add_tags tags (link_all (sid id u)))
  | s_each id u info tags m dn rest ids : tags = dn ++ rest → good_map d m → good_ids d ids dn →
      stage d (AddSock id u info tags) (add_each m rest ids (link_all (sid id u)))
  | s_link id u info tags dn rest : good_ids d (dn ++ rest) tags → stage d (AddSock id u info tags) (link_all (sid id u) rest)
  | s_del2 id : id ≠ "" → stage d (DeleteSock id) (DelSock id (Ret Ok))
  | s_deleted id : stage d (DeleteSock id) (Ret Ok)
  | s_each2 tags m dn rest ids : tags = dn ++ rest → good_map d m → good_ids d ids dn → stage d (AddTags tags) (add_each m rest ids (λ _, Ret Ok))
  | s_added tags ids : good_ids d ids tags → stage d (AddTags tags) (Ret Ok)
  | s_query o r : is_query o = true → stage d o (Ret r)
  | s_failed o : stage d o (Ret Failed).
Lemma good_ids_mono d d' ids ns : d_tags d ⊆ d_tags d' → good_ids d ids ns → good_ids d' ids ns.
Proof. intros H Hg. eapply Forall2_impl; [exact Hg|]. intros. by apply H. Qed.
Lemma good_map_mono d d' m : d_tags d ⊆ d_tags d' → good_map d m → good_map d' m.
Proof. intros H Hm n i Hi. by apply H, Hm. Qed.
Lemma stage_mono d d' o p : d_tags d ⊆ d_tags d' → stage d o p → stage d' o p.
Proof.
  intros H Hs. destruct Hs; [apply s_start|by apply s_delsock|apply s_put|apply s_tags| | |by apply s_del2|apply s_deleted| | |by apply s_query|apply s_failed].
  - eapply s_each; eauto using good_ids_mono, good_map_mono.
  - eapply s_link; eauto using good_ids_mono.
  - eapply s_each2; eauto using good_ids_mono, good_map_mono.
  - eapply s_added; eauto using good_ids_mono.
Qed.
Lemma good_lookup_map d : good_map d (lookup_map (d_tags d)).
Proof.
  unfold lookup_map. assert (∀ l m, (∀ n i, m !! n = Some i → (i, n) ∈ d_tags d) → l ⊆ d_tags d → good_map d (foldl (λ m t, <[t.2 := t.1]> m) m l)) as H.
  { induction l as [|[i n] l IH]; intros m Hm Hl; simpl; [done|]. apply IH; [|set_solver].
    intros n' i' [[<- <-]|[_ ?]]%lookup_insert_Some; [|by apply Hm]. apply Hl. by left. }
  apply H; [|done]. intros n i Hi. by rewrite lookup_empty in Hi.
Qed.
Lemma full_lookup_map l n : n ∈ l.*2 → is_Some (lookup_map l !! n).
Proof.
  unfold lookup_map. assert (∀ l m, n ∈ l.*2 ∨ is_Some (m !! n) → is_Some (foldl (λ (m : gmap string nat) (t : nat * string), <[t.2 := t.1]> m) m l !! n)) as H.
  { clear l. induction l as [|[i n'] l IH]; intros m [Hn|Hn]; simpl in *; [by apply elem_of_nil in Hn|done| |]; apply IH.
    - apply elem_of_cons in Hn as [->|Hn]; [right; rewrite lookup_insert; eauto|by left].
    - right. apply lookup_insert_is_Some'. by right. }
  intros Hn. apply H. by left.
Qed.
Lemma each_cases d m dn rest ids k : good_map d m → good_ids d ids dn →
  (∃ ids', add_each m rest ids k = k ids' ∧ good_ids d ids' (dn ++ rest)) ∨
  (∃ n rest1 rest2 ids', rest = rest1 ++ n :: rest2 ∧ m !! n = None ∧ good_ids d ids' (dn ++ rest1) ∧
     add_each m rest ids k = InsTag n (λ i, add_each (<[n := i]> m) rest2 (ids' ++ [i]) k)).
Proof.
  intros Hm. revert dn ids. induction rest as [|n rest IH]; intros dn ids Hi; simpl.
  - left. exists ids. by rewrite app_nil_r.
  - destruct (m !! n) as [i|] eqn:E.
    + destruct (IH (dn ++ [n]) (ids ++ [i])) as [(ids' & Hk & Hg)|(n' & r1 & r2 & ids' & -> & Hn & Hg & Hk)].
      { apply Forall2_app; [done|]. constructor; [by apply Hm|constructor]. }
      * left. exists ids'. split; [done|]. by rewrite <-app_assoc in Hg.
      * right. exists n', (n :: r1), r2, ids'. split; [done|]. split; [done|]. split; [by rewrite <-app_assoc in Hg|done].
    + right. exists n, [], rest, ids. by rewrite app_nil_r.
Qed.
Definition fact (d : db) (o : op) (p : prog) : Prop :=
  match p with
  | DelLinks s _ | DelSock s _ => target o = Some s
  | InsSock s info _ => target o = Some s ∧ ∃ id u tags, o = AddSock id u info tags
  | InsTag n _ => n ∈ adds o
  | InsLink s i _ => target o = Some s ∧ ∃ id u info tags n, o = AddSock id u info tags ∧ n ∈ tags ∧ (i, n) ∈ d_tags d
  | _ => True
  end.
Lemma link_fact d id u info tags dn rest : good_ids d (dn ++ rest) tags → fact d (AddSock id u info tags) (link_all (sid id u) rest).
Proof.
  intros Hg. destruct rest as [|i rest]; [done|]. split; [done|]. apply Forall2_app_inv_l in Hg as (n1 & n2 & _ & Hg & ->).
  apply Forall2_cons_inv_l in Hg as (n & n2' & Hn & _ & ->). exists id, u, info, (n1 ++ n :: n2'), n. split; [done|]. split; [set_solver|done].
Qed.
Lemma stage_fact d o p : stage d o p → fact d o p.
Proof.
  intros H. destruct H as [o|id u info tags Hid|id u info tags| |id u info tags m dn rest ids -> Hm Hg|id u info tags dn rest Hg|id Hid| |tags m dn rest ids -> Hm Hg| | |].
  - destruct o as [id u info tags|id| | | | |]; try exact I; simpl; unfold add_sock, delete_sock, sid.
    + destruct (decide (id = "")) as [->|]; simpl; [split; [done|eauto]|]. by destruct (decide (id = "")).
    + by destruct (decide (id = "")).
  - simpl. by destruct (decide (id = "")).
  - simpl. split; [done|]. eauto.
  - exact I.
  - destruct (each_cases d m dn rest ids (link_all (sid id u)) Hm Hg) as [(ids' & -> & Hg')|(n & r1 & r2 & ids' & -> & _ & _ & ->)].
    + apply (link_fact d id u info (dn ++ rest) [] ids'). done.
    + simpl. set_solver.
  - by eapply link_fact.
  - done.
  - exact I.
  - destruct (each_cases d m dn rest ids (λ _, Ret Ok) Hm Hg) as [(ids' & -> & Hg')|(n & r1 & r2 & ids' & -> & _ & _ & ->)]; [exact I|]. simpl. set_solver.
  - exact I.
  - exact I.
  - exact I.
Qed.

(** ** What holds in every history *)
Record inv (w : world) : Prop := {
  i_ids : NoDup (d_tags (w_db w)).*1;
  i_next i n : (i, n) ∈ d_tags (w_db w) → (i < d_next (w_db w))%nat;
  i_key : NoDup (d_socks (w_db w)).*1;
  i_socks s info : (s, info) ∈ d_socks (w_db w) → ∃ t id u tags th, w_calls w !! t = Some (AddSock id u info tags, th) ∧ sid id u = s;
  i_links s i : (s, i) ∈ d_links (w_db w) → ∃ t id u info tags th n, w_calls w !! t = Some (AddSock id u info tags, th) ∧ sid id u = s ∧ n ∈ tags ∧ (i, n) ∈ d_tags (w_db w);
  i_tags i n : (i, n) ∈ d_tags (w_db w) → ∃ t o th, w_calls w !! t = Some (o, th) ∧ n ∈ adds o;
  i_run t o p : w_calls w !! t = Some (o, Running p) → stage (w_db w) o p ∧ settle p = Running p;
  i_done t o r : w_calls w !! t = Some (o, Done r) → stage (w_db w) o (Ret r) }.
Definition op_at (w : world) (t : nat) (o : op) : Prop := ∃ th, w_calls w !! t = Some (o, th).
Definition ext (w w' : world) : Prop := ∀ t o, op_at w t o → op_at w' t o.
Lemma insert_ext w t o th th' d : w_calls w !! t = Some (o, th) → ext w (World d (<[t := (o, th')]> (w_calls w))).
Proof.
  intros Ht t' o' [th1 H]. unfold op_at; simpl. destruct (decide (t' = t)) as [->|]; [|rewrite list_lookup_insert_ne by done; eauto].
  rewrite list_lookup_insert by (by eapply lookup_lt_Some). simplify_eq. eauto.
Qed.
Lemma write_tags fk p d d' : write fk p d = Some d' → d_tags d ⊆ d_tags d'.
Proof.
  intros H. destruct p; simpl in H; repeat case_match; simplify_eq; simpl; try done. set_solver.
Qed.
Lemma stage_next fk d d' o p : stage d o p → write fk p d = Some d' → stage d' o (next p d).
Proof.
  intros H Hw. pose proof (write_tags _ _ _ _ Hw) as Hsub. pose proof (stage_mono _ _ _ _ Hsub H) as H'.
  assert (Hlink : ∀ id u info tags dn rest, good_ids d (dn ++ rest) tags → stage d' (AddSock id u info tags) (next (link_all (sid id u) rest) d)).
  { intros id u info tags dn rest Hg. destruct rest as [|i rest]; simpl.
    - apply (s_link d' id u info tags dn []). by eapply good_ids_mono.
    - apply (s_link d' id u info tags (dn ++ [i]) rest). rewrite <-app_assoc. by eapply good_ids_mono. }
  assert (Hins : ∀ n g m ids l, InsTag n g = p → good_map d m → good_ids d ids l → good_map d' (<[n := d_next d]> m) ∧ good_ids d' (ids ++ [d_next d]) (l ++ [n])).
  { intros n g m ids l <- Hm Hg. simpl in Hw. simplify_eq. simpl in *. assert ((d_next d, n) ∈ d_tags d ++ [(d_next d, n)]) as Hin by set_solver. split.
    - intros n' i [[<- <-]|[_ Hi]]%lookup_insert_Some; [done|]. simpl. apply elem_of_app. left. by apply Hm.
    - apply Forall2_app; [by eapply good_ids_mono|]. constructor; [done|constructor]. }
  destruct H as [o|id u info tags Hid|id u info tags|id u info tags|id u info tags m dn rest ids -> Hm Hg|id u info tags dn rest Hg|id Hid|id|tags m dn rest ids -> Hm Hg|tags ids Hg|o r Hq|o].
  - destruct o as [id u info tags|id|tags|tags order page size|tags|id|]; simpl.
    + unfold add_sock. destruct (decide (id = "")) as [->|Hne]; simpl; [apply (s_tags d' "" u info tags)|by apply s_delsock].
    + unfold delete_sock. destruct (decide (id = "")) as [->|Hne]; simpl; [apply s_deleted|by apply s_del2].
    + apply (s_each2 d' tags _ [] tags []); [done| |constructor]. eapply good_map_mono; [done|]. apply good_lookup_map.
    + by apply s_query.
    + by apply s_query.
    + by apply s_query.
    + by apply s_query.
  - simpl. pose proof (s_put d' id u info tags) as E. unfold sid in E. by destruct (decide (id = "")).
  - simpl. apply s_tags.
  - simpl. apply (s_each d' id u info tags _ [] tags []); [done| |constructor]. eapply good_map_mono; [done|]. apply good_lookup_map.
  - destruct (each_cases d m dn rest ids (link_all (sid id u)) Hm Hg) as [(ids' & E & Hg')|(n & r1 & r2 & ids' & -> & Hn & Hg' & E)].
    + rewrite E. by apply (Hlink id u info (dn ++ rest) []).
    + destruct (Hins n _ m ids' (dn ++ r1) (eq_sym E) Hm Hg') as [Hm' Hi']. rewrite E. simpl. eapply s_each; [|exact Hm'|exact Hi']. by rewrite <-!app_assoc.
  - by eapply Hlink.
  - apply s_deleted.
  - done.
  - destruct (each_cases d m dn rest ids (λ _, Ret Ok) Hm Hg) as [(ids' & E & Hg')|(n & r1 & r2 & ids' & -> & Hn & Hg' & E)].
    + rewrite E. simpl. eapply s_added. by eapply good_ids_mono.
    + destruct (Hins n _ m ids' (dn ++ r1) (eq_sym E) Hm Hg') as [Hm' Hi']. rewrite E. simpl. eapply s_each2; [|exact Hm'|exact Hi']. by rewrite <-!app_assoc.
  - done.
  - done.
  - done.
Qed.
Lemma write_socks fk p d d' s info : write fk p d = Some d' → (s, info) ∈ d_socks d' → (s, info) ∈ d_socks d ∨ ∃ q, p = InsSock s info q.
Proof.
  intros H Hin. destruct p as [r|s' q|s' q|s' info' q|g|n g|s' i q|q]; simpl in H; repeat case_match; simplify_eq; simpl in *; auto.
  - apply elem_of_list_filter in Hin as [_ ?]. auto.
  - apply elem_of_app in Hin as [?|Hin]; [auto|]. apply elem_of_list_singleton in Hin. simplify_eq. eauto.
Qed.
Lemma write_links fk p d d' s i : write fk p d = Some d' → (s, i) ∈ d_links d' → (s, i) ∈ d_links d ∨ ∃ q, p = InsLink s i q.
Proof.
  intros H Hin. destruct p as [r|s' q|s' q|s' info' q|g|n g|s' i' q|q]; simpl in H; repeat case_match; simplify_eq; simpl in *; auto.
  - apply elem_of_list_filter in Hin as [_ ?]. auto.
  - apply elem_of_app in Hin as [?|Hin]; [auto|]. apply elem_of_list_singleton in Hin. simplify_eq. eauto.
Qed.
Lemma write_tag fk p d d' i n : write fk p d = Some d' → (i, n) ∈ d_tags d' → (i, n) ∈ d_tags d ∨ (i = d_next d ∧ ∃ q, p = InsTag n q).
Proof.
  intros H Hin. destruct p as [r|s' q|s' q|s' info' q|g|n' g|s' i' q|q]; simpl in H; repeat case_match; simplify_eq; simpl in *; auto.
  apply elem_of_app in Hin as [?|Hin]; [auto|]. apply elem_of_list_singleton in Hin. simplify_eq. eauto.
Qed.
Lemma write_next fk p d d' : write fk p d = Some d' → (d_next d ≤ d_next d')%nat ∧ ((∃ n q, p = InsTag n q) → d_next d' = S (d_next d)).
Proof. intros H. destruct p; simpl in H; repeat case_match; simplify_eq; simpl; split; try lia; naive_solver. Qed.
Lemma filter_key {A B : Type} (P : A * B → Prop) `{!∀ x, Decision (P x)} (l : list (A * B)) : NoDup l.*1 → NoDup (filter P l).*1.
Proof.
  induction l as [|x l IH]; [done|]. simpl. intros [Hx Hl]%NoDup_cons. rewrite filter_cons. case_decide; [|auto].
  simpl. apply NoDup_cons. split; [|auto]. intros [y [Hy Hin]]%elem_of_list_fmap. apply Hx. apply elem_of_list_filter in Hin as [_ Hin]. rewrite Hy. apply elem_of_list_fmap; eauto.
Qed.
Lemma inv_started : inv started.
Proof.
  split; simpl; try apply NoDup_nil_2; intros *; try (intros H; by apply elem_of_nil in H); try (intros H; by rewrite lookup_nil in H).
Qed.
Lemma inv_calls_mono w w' : ext w w' → d_tags (w_db w) ⊆ d_tags (w_db w') → inv w → 
  (∀ s info, (s, info) ∈ d_socks (w_db w) → ∃ t id u tags th, w_calls w' !! t = Some (AddSock id u info tags, th) ∧ sid id u = s) ∧
  (∀ s i, (s, i) ∈ d_links (w_db w) → ∃ t id u info tags th n, w_calls w' !! t = Some (AddSock id u info tags, th) ∧ sid id u = s ∧ n ∈ tags ∧ (i, n) ∈ d_tags (w_db w')) ∧
  (∀ i n, (i, n) ∈ d_tags (w_db w) → ∃ t o th, w_calls w' !! t = Some (o, th) ∧ n ∈ adds o).
Proof.
  intros E Hsub Hi. split; [|split].
  - intros s info H. destruct (i_socks _ Hi _ _ H) as (t&id&u&tags&th&Ht&Hs). destruct (E t (AddSock id u info tags)) as [th' H']; [by eexists|]. eauto 10.
  - intros s i H. destruct (i_links _ Hi _ _ H) as (t&id&u&info&tags&th&n&Ht&Hs&Hn&Hin). destruct (E t (AddSock id u info tags)) as [th' H']; [by eexists|].
    exists t, id, u, info, tags, th', n. auto.
  - intros i n H. destruct (i_tags _ Hi _ _ H) as (t&o&th&Ht&Hn). destruct (E t o) as [th' H']; [by eexists|]. eauto.
Qed.
Lemma inv_same w calls : inv w → ext w (World (w_db w) calls) →
  (∀ t o p, calls !! t = Some (o, Running p) → stage (w_db w) o p ∧ settle p = Running p) → (∀ t o r, calls !! t = Some (o, Done r) → stage (w_db w) o (Ret r)) →
  inv (World (w_db w) calls).
Proof.
  intros Hi E Hr Hd. destruct (inv_calls_mono w _ E) as (H1 & H2 & H3); [done|done|]. split; simpl; try done; [apply (i_ids _ Hi)|apply (i_next _ Hi)|apply (i_key _ Hi)].
Qed.
Lemma settle_run p q : settle p = Running q → p = q ∧ settle p = Running p.
Proof. destruct p; simpl; intros; simplify_eq; done. Qed.
Lemma settle_done p r : settle p = Done r → p = Ret r.
Proof. by destruct p; simpl; intros; simplify_eq. Qed.
Lemma inv_step fk e w w' : step fk e w = Some w' → inv w → inv w'.
Proof.
  intros Hs Hi. destruct e as [o|t f|t]; simpl in Hs.
  - simplify_eq. apply inv_same; [done| | |].
    + intros t o' [th Ht]. exists th. simpl. by apply lookup_app_l_Some.
    + intros t o' p Ht. apply lookup_app_Some in Ht as [Ht|[_ Ht]]; [by apply (i_run _ Hi t)|].
      apply list_lookup_singleton_Some in Ht as [_ Ht]. injection Ht as <- Ht. apply settle_run in Ht as [<- ?]. split; [apply s_start|done].
    + intros t o' r Ht. apply lookup_app_Some in Ht as [Ht|[_ Ht]]; [by apply (i_done _ Hi t)|].
      apply list_lookup_singleton_Some in Ht as [_ Ht]. injection Ht as <- Ht. apply settle_done in Ht. rewrite <-Ht. apply s_start.
  - destruct (w_calls w !! t) as [[o [p| |]]|] eqn:Ht; try done. destruct (i_run _ Hi _ _ _ Ht) as [Hst Hrun].
    destruct (if done_by f then write fk p (w_db w) else None) as [d|] eqn:Hw; simplify_eq.
    + destruct (done_by f); [|done]. pose proof (write_tags _ _ _ _ Hw) as Hsub. pose proof (stage_fact _ _ _ Hst) as Hf.
      match goal with |- inv ?w' => set (w2 := w') end. assert (ext w w2) as E by (by eapply insert_ext).
      assert (Hat : op_at w2 t o) by (apply E; by eexists). destruct Hat as [th Hat].
      destruct (inv_calls_mono w w2 E) as (H1 & H2 & H3); [done|done|]. split; simpl.
      * destruct p as [r|s' q|s' q|s' info' q|g|n g|s' i q|q]; simpl in Hw; repeat case_match; simplify_eq; simpl; try apply (i_ids _ Hi).
        rewrite fmap_app. apply NoDup_app. split; [apply (i_ids _ Hi)|]. split; [|apply NoDup_singleton].
        intros i [[i' n'] [-> H]]%elem_of_list_fmap Hx. apply elem_of_list_singleton in Hx. simpl in Hx. subst. apply (i_next _ Hi) in H. lia.
      * intros i n Hin. destruct (write_next _ _ _ _ Hw) as [Hle Hsucc]. destruct (write_tag _ _ _ _ _ _ Hw Hin) as [Hin'|[-> [q ->]]].
        -- apply (i_next _ Hi) in Hin'. lia.
        -- rewrite Hsucc by eauto. lia.
      * destruct p as [r|s' q|s' q|s' info' q|g|n g|s' i q|q]; simpl in Hw; repeat case_match; simplify_eq; simpl; try apply (i_key _ Hi).
        -- apply filter_key, (i_key _ Hi).
        -- rewrite fmap_app. apply NoDup_app. split; [apply (i_key _ Hi)|]. split; [|apply NoDup_singleton].
           intros s Hy Hx. apply elem_of_list_singleton in Hx. simpl in Hx. by subst.
      * intros s info Hin. destruct (write_socks _ _ _ _ _ _ Hw Hin) as [H|[q ->]]; [by apply H1|].
        simpl in Hf. destruct Hf as [Htar (id & u & tags & ->)]. simpl in Htar. injection Htar as <-. exists t, id, u, tags, th. done.
      * intros s i Hin. destruct (write_links _ _ _ _ _ _ Hw Hin) as [H|[q ->]]; [by apply H2|].
        simpl in Hf. destruct Hf as [Htar (id & u & info & tags & n & -> & Hn & Hi')]. simpl in Htar. injection Htar as <-.
        exists t, id, u, info, tags, th, n. split; [done|]. split; [done|]. split; [done|]. by apply Hsub.
      * intros i n Hin. destruct (write_tag _ _ _ _ _ _ Hw Hin) as [H|[-> [q ->]]]; [by apply (H3 i)|]. simpl in Hf. eauto.
      * intros t' o' p' Ht'. apply list_lookup_insert_Some in Ht' as [(->&H&_)|[_ Ht']].
        -- injection H as -> H. destruct (fine f); [|done]. apply settle_run in H as [<- ?]. split; [by eapply stage_next|done].
        -- destruct (i_run _ Hi _ _ _ Ht') as [? ?]. split; [by eapply stage_mono|done].
      * intros t' o' r Ht'. apply list_lookup_insert_Some in Ht' as [(->&H&_)|[_ Ht']].
        -- injection H as -> H. destruct (fine f); [|simplify_eq; apply s_failed]. apply settle_done in H. rewrite <-H. by eapply stage_next.
        -- eapply stage_mono; [done|]. by apply (i_done _ Hi t').
    + apply inv_same; [done|by eapply insert_ext| |].
      * intros t' o' p' Ht'. apply list_lookup_insert_Some in Ht' as [(->&H&_)|[_ Ht']]; [done|by apply (i_run _ Hi t')].
      * intros t' o' r Ht'. apply list_lookup_insert_Some in Ht' as [(->&H&_)|[_ Ht']]; [simplify_eq; apply s_failed|by apply (i_done _ Hi t')].
  - destruct (w_calls w !! t) as [[o [p| |]]|] eqn:Ht; simplify_eq. apply inv_same; [done|by eapply insert_ext| |].
    + intros t' o' p' Ht'. apply list_lookup_insert_Some in Ht' as [(->&H&_)|[_ Ht']]; [done|by apply (i_run _ Hi t')].
    + intros t' o' r Ht'. apply list_lookup_insert_Some in Ht' as [(->&H&_)|[_ Ht']]; [done|by apply (i_done _ Hi t')].
Qed.
Lemma inv_run fk (P : world → event → Prop) w es w' : run fk P w es w' → inv w → inv w'.
Proof. induction 1; eauto using inv_step. Qed.
Lemma inv_history fk es w : history fk es w → inv w.
Proof. intros H. eapply inv_run; [exact H|apply inv_started]. Qed.

(** ** Calls about one sock, one at a time *)
Definition no_links (d : db) (s : string) : Prop := ∀ i, (s, i) ∉ d_links d.
Definition no_row (d : db) (s : string) : Prop := ∀ info, (s, info) ∉ d_socks d.
Definition row_is (d : db) (s info : string) : Prop := ∀ info', (s, info') ∈ d_socks d ↔ info' = info.
Inductive solo (d : db) (s : string) : op → thread → Prop :=
  | o_failed o : solo d s o (Done Failed)
  | o_gone o : solo d s o Gone
  | o_start u info tags : s ≠ "" → solo d s (AddSock s u info tags) (Running (DelLinks s (DelSock s (put_sock s info tags))))
  | o_del u info tags : s ≠ "" → no_links d s → solo d s (AddSock s u info tags) (Running (DelSock s (put_sock s info tags)))
  | o_put id u info tags : no_links d s → no_row d s → solo d s (AddSock id u info tags) (Running (put_sock s info tags))
  | o_sel id u info tags : no_links d s → row_is d s info → solo d s (AddSock id u info tags) (Running (add_tags tags (link_all s)))
  | o_each id u info tags m dn rest ids : no_links d s → row_is d s info → tags = dn ++ rest → good_map d m → good_ids d ids dn →
      solo d s (AddSock id u info tags) (settle (add_each m rest ids (link_all s)))
  | o_link id u info tags dn rest : row_is d s info → (∀ i, (s, i) ∈ d_links d ↔ i ∈ dn) → good_ids d (dn ++ rest) tags →
      solo d s (AddSock id u info tags) (settle (link_all s rest))
  | o_dstart : s ≠ "" → solo d s (DeleteSock s) (Running (DelLinks s (DelSock s (Ret Ok))))
  | o_ddel : s ≠ "" → no_links d s → solo d s (DeleteSock s) (Running (DelSock s (Ret Ok)))
  | o_ddone : s ≠ "" → no_links d s → no_row d s → solo d s (DeleteSock s) (Done Ok).
Lemma solo_same d d' s o th : (∀ info, (s, info) ∈ d_socks d' ↔ (s, info) ∈ d_socks d) → (∀ i, (s, i) ∈ d_links d' ↔ (s, i) ∈ d_links d) →
  d_tags d ⊆ d_tags d' → solo d s o th → solo d' s o th.
Proof.
  intros Hs Hl Ht H.
  assert (no_links d s → no_links d' s) as Hnl by (intros H1 i; rewrite Hl; apply H1).
  assert (no_row d s → no_row d' s) as Hnr by (intros H2 i; rewrite Hs; apply H2).
  assert (∀ info, row_is d s info → row_is d' s info) as Hri by (intros info H2 i; rewrite Hs; apply H2).
  destruct H; [apply o_failed|apply o_gone|by apply o_start|apply o_del; auto|apply o_put; auto|apply o_sel; auto| | |by apply o_dstart|apply o_ddel; auto|apply o_ddone; auto].
  - eapply o_each; eauto using good_map_mono, good_ids_mono.
  - eapply o_link; eauto using good_ids_mono. intros i. by rewrite Hl.
Qed.
Lemma other_write fk p d d' o s : fact d o p → target o ≠ Some s → write fk p d = Some d' →
  (∀ info, (s, info) ∈ d_socks d' ↔ (s, info) ∈ d_socks d) ∧ (∀ i, (s, i) ∈ d_links d' ↔ (s, i) ∈ d_links d).
Proof.
  intros Hf Ht H. destruct p as [r|s' q|s' q|s' info' q|g|n g|s' i q|q]; simpl in Hf, H; repeat case_match; simplify_eq; simpl; try done.
  - split; [done|]. intros i. rewrite elem_of_list_filter. naive_solver.
  - split; [|done]. intros info. rewrite elem_of_list_filter. naive_solver.
  - split; [|done]. intros info. rewrite elem_of_app, elem_of_list_singleton. naive_solver.
  - split; [done|]. intros j. rewrite elem_of_app, elem_of_list_singleton. naive_solver.
Qed.
Lemma link_next fk d d' s id u info tags dn i rest : row_is d s info → (∀ i, (s, i) ∈ d_links d ↔ i ∈ dn) → good_ids d (dn ++ i :: rest) tags →
  write fk (InsLink s i (link_all s rest)) d = Some d' → solo d' s (AddSock id u info tags) (settle (link_all s rest)).
Proof.
  intros Hr Hl Hg Hw. pose proof (write_tags _ _ _ _ Hw) as Hsub. simpl in Hw. case_match; simplify_eq.
  apply (o_link _ s id u info tags (dn ++ [i]) rest); [done| |].
  - simpl. intros j. rewrite !elem_of_app, !elem_of_list_singleton, Hl. naive_solver.
  - rewrite <-app_assoc. by eapply good_ids_mono.
Qed.
Lemma solo_next fk d d' s o p : solo d s o (Running p) → write fk p d = Some d' → solo d' s o (settle (next p d)).
Proof.
  intros H Hw. pose proof (write_tags _ _ _ _ Hw) as Hsub. remember (Running p) as th eqn:E.
  destruct H as [o|o|u info tags Hne|u info tags Hne Hl|id u info tags Hl Hr|id u info tags Hl Hr|id u info tags m dn rest ids Hl Hr -> Hm Hg|id u info tags dn rest Hr Hl Hg|Hne|Hne Hl|Hne Hl Hr]; try done.
  - simplify_eq. simpl in Hw. simplify_eq. simpl. apply o_del; [done|]. intros i Hi. simpl in Hi. by apply elem_of_list_filter in Hi as [? _].
  - simplify_eq. simpl in Hw. case_match; simplify_eq. simpl. apply o_put; [done|]. intros i Hi. simpl in Hi. by apply elem_of_list_filter in Hi as [? _].
  - simplify_eq. simpl in Hw. case_match; simplify_eq. simpl. apply o_sel; [done|]. intros info'. simpl. rewrite elem_of_app, elem_of_list_singleton. split.
    + intros [Hx|Hx]; [by apply Hr in Hx|by simplify_eq].
    + intros ->. by right.
  - simplify_eq. simpl in Hw. simplify_eq. simpl. apply (o_each _ s id u info tags _ [] tags []); [done|done|done|apply good_lookup_map|constructor].
  - destruct (each_cases d m dn rest ids (link_all s) Hm Hg) as [(ids' & Ee & Hg')|(n & r1 & r2 & ids' & -> & Hn & Hg' & Ee)]; rewrite Ee in E.
    + destruct ids' as [|i ids']; [done|]. simpl in E. simplify_eq. simpl.
      eapply (link_next fk d d' s id u info _ [] i ids'); [done| |done|done]. intros j. split; [intros Hj; by apply Hl in Hj|intros Hj; by apply elem_of_nil in Hj].
    + simpl in E. simplify_eq. simpl in *. simplify_eq. simpl in *.
      apply (o_each _ s id u info _ (<[n := d_next d]> m) ((dn ++ r1) ++ [n]) r2 (ids' ++ [d_next d])); [done|done|by rewrite <-!app_assoc| |].
      * intros n' i [[<- <-]|[_ Hi]]%lookup_insert_Some; simpl; [set_solver|]. apply elem_of_app. left. by apply Hm.
      * apply Forall2_app; [by eapply good_ids_mono|]. constructor; [simpl; set_solver|constructor].
  - destruct rest as [|i rest]; [done|]. simpl in E. simplify_eq. simpl. by eapply link_next.
  - simplify_eq. simpl in Hw. simplify_eq. simpl. apply o_ddel; [done|]. intros i Hi. simpl in Hi. by apply elem_of_list_filter in Hi as [? _].
  - simplify_eq. simpl in Hw. case_match; simplify_eq. simpl. apply o_ddone; [done|done|]. intros i Hi. simpl in Hi. by apply elem_of_list_filter in Hi as [? _].
Qed.
Lemma solo_step fk e w w' s t o th : step fk e w = Some w' → spares s w e → inv w →
  (∀ t' o' th', w_calls w !! t' = Some (o', th') → target o' = Some s → t' ≠ t → over th') → w_calls w !! t = Some (o, th) → solo (w_db w) s o th →
  (∀ t' o' th', w_calls w' !! t' = Some (o', th') → target o' = Some s → t' ≠ t → over th') ∧ ∃ th', w_calls w' !! t = Some (o, th') ∧ solo (w_db w') s o th'.
Proof.
  intros Hs Hsp Hi Hov Ht Hso. destruct e as [o1|t1 f|t1]; simpl in Hs.
  - simplify_eq. split.
    + intros t' o' th' H. simpl in H. apply lookup_app_Some in H as [H|[_ H]]; [by apply (Hov t')|].
      apply list_lookup_singleton_Some in H as [_ H]. injection H as <- H. intros Htar. by destruct Hsp.
    + exists th. split; [|done]. simpl. by apply lookup_app_l_Some.
  - destruct (w_calls w !! t1) as [[o1 [p| |]]|] eqn:Ht1; try done. destruct (i_run _ Hi _ _ _ Ht1) as [Hst _].
    assert (∀ th1, (∀ t' o' th', (<[t1 := (o1, th1)]> (w_calls w)) !! t' = Some (o', th') → target o' = Some s → t' ≠ t → over th')) as Hov'.
    { intros th1 t' o' th' H Htar Hne. apply list_lookup_insert_Some in H as [(->&H&_)|[_ H]]; [|by eapply Hov].
      injection H as -> <-. by destruct (Hov _ _ _ Ht1 Htar Hne p). }
    destruct (decide (t1 = t)) as [->|Hne].
    + simplify_eq. assert (t < length (w_calls w))%nat by (by eapply lookup_lt_Some).
      destruct (if done_by f then write fk p (w_db w) else None) as [d|] eqn:Hw; simplify_eq; split; try apply Hov'; simpl.
      * destruct (done_by f); [|done]. eexists. split; [by apply list_lookup_insert|]. destruct (fine f); [by eapply solo_next|apply o_failed].
      * eexists. split; [by apply list_lookup_insert|apply o_failed].
    + assert (target o1 ≠ Some s) as Hnt. { intros Htar. by destruct (Hov _ _ _ Ht1 Htar Hne p). }
      destruct (if done_by f then write fk p (w_db w) else None) as [d|] eqn:Hw; simplify_eq; split; try apply Hov'; simpl.
      * destruct (done_by f); [|done]. exists th. split; [by rewrite list_lookup_insert_ne|].
        destruct (other_write _ _ _ _ _ _ (stage_fact _ _ _ Hst) Hnt Hw). eapply solo_same; eauto using write_tags.
      * exists th. split; [by rewrite list_lookup_insert_ne|done].
  - destruct (w_calls w !! t1) as [[o1 [p| |]]|] eqn:Ht1; simplify_eq. split.
    + intros t' o' th' H Htar Hne. simpl in H. apply list_lookup_insert_Some in H as [(->&H&_)|[_ H]]; [|by eapply Hov]. simplify_eq. by intros p'.
    + simpl. destruct (decide (t1 = t)) as [->|Hne].
      * simplify_eq. exists Gone. split; [apply list_lookup_insert; by eapply lookup_lt_Some|apply o_gone].
      * exists th. split; [by rewrite list_lookup_insert_ne|done].
Qed.
Lemma solo_run fk w es w' s t o th : run fk (spares s) w es w' → inv w →
  (∀ t' o' th', w_calls w !! t' = Some (o', th') → target o' = Some s → t' ≠ t → over th') → w_calls w !! t = Some (o, th) → solo (w_db w) s o th →
  (∀ t' o' th', w_calls w' !! t' = Some (o', th') → target o' = Some s → t' ≠ t → over th') ∧ ∃ th', w_calls w' !! t = Some (o, th') ∧ solo (w_db w') s o th'.
Proof.
  intros Hr Hi Hov Ht Hso. induction Hr as [w|w es w1 e w2 Hr IH HP Hs]; [eauto|]. destruct IH as (Hov1 & th1 & Ht1 & Hso1); [done..|].
  eapply solo_step; eauto using inv_run.
Qed.
Lemma solo_start w s o : inv w → alone_before w s o → target o = Some s → (∀ id, o = DeleteSock id → id ≠ "") → solo (w_db w) s o (settle (program o)).
Proof.
  intros Hi [_ Hal] Ht Hd. destruct o as [id u info tags|id| | | | |]; simpl in Ht; try done; injection Ht as <-.
  - simpl. unfold add_sock. destruct (decide (id = "")) as [->|Hne]; simpl; [|by apply o_start]. specialize (Hal eq_refl).
    apply o_put.
    + intros i H. apply (i_links _ Hi) in H as (t&id'&u'&info'&tags'&th&n&Ht&Hs&_). apply (Hal _ _ _ Ht). simpl. f_equal. exact Hs.
    + intros i H. apply (i_socks _ Hi) in H as (t&id'&u'&tags'&th&Ht&Hs). apply (Hal _ _ _ Ht). simpl. f_equal. exact Hs.
  - simpl. unfold delete_sock. destruct (decide (id = "")) as [->|Hne]; [by destruct (Hd "")|]. by apply o_dstart.
Qed.
Lemma ids_tagged d dn tags s : NoDup (d_tags d).*1 → (∀ i, (s, i) ∈ d_links d ↔ i ∈ dn) → good_ids d dn tags → ∀ n, tagged_d d s n ↔ n ∈ tags.
Proof.
  intros Hnd Hl Hg n. split.
  - intros (i & Hi & Hn). apply Hl in Hi. apply elem_of_list_lookup in Hi as [k Hk]. destruct (Forall2_lookup_l _ _ _ _ _ Hg Hk) as (n' & Hn' & Hin).
    assert (n = n') as ->; [|by eapply elem_of_list_lookup_2].
    apply elem_of_list_lookup in Hn as [a Ha]. apply elem_of_list_lookup in Hin as [b Hb].
    assert (a = b) as ->; [|by simplify_eq]. eapply (NoDup_lookup _ _ _ i Hnd); rewrite list_lookup_fmap; [by rewrite Ha|by rewrite Hb].
  - intros Hn. apply elem_of_list_lookup in Hn as [k Hk]. destruct (Forall2_lookup_r _ _ _ _ _ Hg Hk) as (i & Hi & Hin).
    exists i. split; [|done]. apply Hl. by eapply elem_of_list_lookup_2.
Qed.
Lemma solo_added d s id u info tags r : NoDup (d_tags d).*1 → solo d s (AddSock id u info tags) (Done (Added r)) → r = s ∧ row_is d s info ∧ ∀ n, tagged_d d s n ↔ n ∈ tags.
Proof.
  intros Hnd H. inversion H as [| | | | | |id' u' info' tags' m dn rest ids Hl Hr E Hm Hg E1 E2|id' u' info' tags' dn rest Hr Hl Hg E1 E2| | |]; subst.
  - destruct (each_cases d m dn rest ids (link_all s) Hm Hg) as [(ids' & Ee & Hg')|(n & r1 & r2 & ids' & -> & Hn & Hg' & Ee)]; rewrite Ee in E2; [|done].
    destruct ids' as [|i ids']; [|done]. simpl in E2. injection E2 as <-. split; [done|]. split; [done|].
    apply (ids_tagged d [] _ s Hnd); [|done]. intros j. split; [intros Hj; by apply Hl in Hj|intros Hj; by apply elem_of_nil in Hj].
  - destruct rest as [|i rest]; [|done]. simpl in E2. injection E2 as <-. rewrite app_nil_r in Hg. split; [done|]. split; [done|]. by eapply ids_tagged.
Qed.
Lemma alone_run fk es1 w1 s o es2 w2 r : history fk es1 w1 → alone_before w1 s o → target o = Some s → (∀ id, o = DeleteSock id → id ≠ "") →
  ∀ w1', step fk (Start o) w1 = Some w1' → run fk (spares s) w1' es2 w2 → w_calls w2 !! length (w_calls w1) = Some (o, Done r) → inv w2 ∧ solo (w_db w2) s o (Done r).
Proof.
  intros Hh Hal Htar Hd w1' Hs Hr Hdone. pose proof (inv_history _ _ _ Hh) as Hi. pose proof (inv_step _ _ _ _ Hs Hi) as Hi'.
  pose proof (solo_start _ _ _ Hi Hal Htar Hd) as Hso. simpl in Hs. injection Hs as <-. split; [by eapply inv_run|].
  destruct (solo_run fk _ _ _ s (length (w_calls w1)) o (settle (program o)) Hr Hi') as (_ & th & Hth & Hs2); simpl.
  - intros t' o' th' H Ht' Hne. apply lookup_app_Some in H as [H|[Hle H]]; [by apply (proj1 Hal t' o' th')|].
    apply list_lookup_singleton_Some in H as [H0 _]. exfalso. lia.
  - rewrite lookup_app_r, Nat.sub_diag by done. done.
  - done.
  - by simplify_eq.
Qed.

(** ** Reading *)
Lemma query_answers fk w o q r : program o = Query q → answers fk w o r ↔ r = q (w_db w).
Proof.
  intros Hp. unfold answers. split.
  - intros (w' & Hr & Hd). inversion Hr as [|? es1 w1 e1 ? Hr1 _ Hs1 E1]; subst. destruct es1 as [|a [|b es1]]; simplify_eq/=; [|by destruct es1].
    inversion Hr1 as [|? es1 w2 e2 ? Hr2 _ Hs2 E2]; subst. destruct es1 as [|c es1]; simplify_eq/=; [|by destruct es1].
    inversion Hr2 as [|? es1 w3 e3 ? Hr3 _ Hs3 E3]; subst; [|by destruct es1]. rewrite Hp in Hs1. simpl in Hs1.
    rewrite lookup_app_r, Nat.sub_diag in Hs1 by done. simpl in Hs1. injection Hs1 as <-. simpl in Hd.
    rewrite list_lookup_insert in Hd by (rewrite app_length; simpl; lia). by simplify_eq.
  - intros ->. eexists. split.
    + apply (run_snoc _ _ _ [Start o] (World (w_db w) (w_calls w ++ [(o, Running (Query q))]))); [|done|].
      * apply (run_snoc _ _ _ [] w); [apply run_nil|done|]. simpl. by rewrite Hp.
      * simpl. rewrite lookup_app_r, Nat.sub_diag by done. simpl. reflexivity.
    + simpl. rewrite list_lookup_insert by (rewrite app_length; simpl; lia). done.
Qed.
Lemma reads_query o : reads o → ∃ q, program o = Query q.
Proof. intros [H1 H2]. destruct o as [| |tags| | | |]; simpl in *; try done; [by destruct (H2 tags)|eauto..]. Qed.
Lemma query_run w t o p q : inv w → w_calls w !! t = Some (o, Running p) → program o = Query q → p = Query q.
Proof.
  intros Hi Ht Hq. destruct (i_run _ Hi _ _ _ Ht) as [Hst Hs]. destruct Hst; simpl in *; try done; unfold add_sock, delete_sock in Hq; repeat case_decide; try done.
Qed.
Lemma answered fk es w : history fk es w → ∀ t o r, w_calls w !! t = Some (o, Done r) → reads o → r = Failed ∨
  ∃ es1 es2 w1 p, es = es1 ++ es2 ∧ history fk es1 w1 ∧ w_calls w1 !! t = Some (o, Running p) ∧ answers fk w1 o r.
Proof.
  intros Hh. unfold history in Hh. remember started as w0 eqn:E0. induction Hh as [w|w es w1 e w2 Hr IH _ Hs]; [subst; intros t o r H; unfold started in H; simpl in H; by rewrite lookup_nil in H|].
  specialize (IH E0). subst w. intros t o r Ht Hrd. change (history fk es w1) in Hr. pose proof (inv_history _ _ _ Hr) as Hi.
  assert (w_calls w1 !! t = Some (o, Done r) → r = Failed ∨ ∃ es1 es2 w1 p, es ++ [e] = es1 ++ es2 ∧ history fk es1 w1 ∧ w_calls w1 !! t = Some (o, Running p) ∧ answers fk w1 o r) as Hold.
  { intros H. destruct (IH _ _ _ H Hrd) as [?|(es1 & es2 & w' & p & -> & ?)]; [by left|]. right. exists es1, (es2 ++ [e]), w', p. by rewrite app_assoc. }
  destruct e as [o1|t1 f|t1]; simpl in Hs.
  - injection Hs as <-. simpl in Ht. apply lookup_app_Some in Ht as [H|[_ H]]; [auto|]. apply list_lookup_singleton_Some in H as [_ H].
    injection H as <- H. destruct (reads_query _ Hrd) as [q Hq]. rewrite Hq in H. done.
  - destruct (w_calls w1 !! t1) as [[o1 [p| |]]|] eqn:Ht1; try done.
    destruct (if done_by f then write fk p (w_db w1) else None) as [d|] eqn:Hw; simplify_eq; simpl in Ht;
      (apply list_lookup_insert_Some in Ht as [(->&H&_)|[_ Ht]]; [|by auto]).
    + injection H as -> H. destruct (fine f); [|simplify_eq; by left]. destruct (reads_query _ Hrd) as [q Hq].
      rewrite (query_run _ _ _ _ _ Hi Ht1 Hq) in H. simpl in H. injection H as <-. right. exists es, [Step t f], w1, p. split; [done|]. split; [done|]. split; [done|].
      by apply (query_answers _ _ _ q).
    + injection H as -> H. simplify_eq. by left.
  - destruct (w_calls w1 !! t1) as [[o1 [p| |]]|] eqn:Ht1; simplify_eq. simpl in Ht. apply list_lookup_insert_Some in Ht as [(->&H&_)|[_ Ht]]; [done|auto].
Qed.
Lemma clean_plain w : inv w → clean w → Forall (λ t, plain t.2) (d_tags (w_db w)).
Proof. intros Hi Hc. apply Forall_forall. intros [i n] Hin. destruct (i_tags _ Hi _ _ Hin) as (t & o & th & Ht & Hn). by eapply Hc. Qed.

(** ** Tags *)
Lemma done_tags w t o r n : inv w → w_calls w !! t = Some (o, Done r) → r ≠ Failed → n ∈ adds o → n ∈ (d_tags (w_db w)).*2.
Proof.
  intros Hi Ht Hr Hn. assert (∀ d ids ns, good_ids d ids ns → n ∈ ns → n ∈ (d_tags d).*2) as Hg.
  { intros d ids ns Hg H. apply elem_of_list_lookup in H as [k Hk]. destruct (Forall2_lookup_r _ _ _ _ _ Hg Hk) as (i & _ & Hin). apply elem_of_list_fmap. by exists (i, n). }
  pose proof (i_done _ Hi _ _ _ Ht) as Hst. remember (Ret r) as p eqn:E.
  destruct Hst as [o| | | |id u info tags m dn rest ids -> Hm Hgi|id u info tags dn rest Hgi| | |tags m dn rest ids -> Hm Hgi|tags ids Hgi|o r' Hq|o]; try done.
  - destruct o; simpl in E, Hn; try (by apply elem_of_nil in Hn); [|done]. unfold add_sock in E. by case_decide.
  - destruct (each_cases (w_db w) m dn rest ids (link_all (sid id u)) Hm Hgi) as [(ids' & Ee & Hg')|(n' & r1 & r2 & ids' & -> & Hn' & Hg' & Ee)]; rewrite Ee in E; [|done]. by eapply Hg.
  - destruct rest as [|i rest]; [|done]. by eapply Hg.
  - by apply elem_of_nil in Hn.
  - destruct (each_cases (w_db w) m dn rest ids (λ _, Ret Ok) Hm Hgi) as [(ids' & Ee & Hg')|(n' & r1 & r2 & ids' & -> & Hn' & Hg' & Ee)]; rewrite Ee in E; [|done]. by eapply Hg.
  - by eapply Hg.
  - destruct o; simpl in Hq, Hn; try done; by apply elem_of_nil in Hn.
  - by simplify_eq.
Qed.
Lemma tags_step fk e w w' : step fk e w = Some w' → d_tags (w_db w) ⊆ d_tags (w_db w').
Proof.
  intros Hs. destruct e as [o1|t1 f|t1]; simpl in Hs; repeat case_match; simplify_eq; simpl; try done; by eapply write_tags.
Qed.
Lemma tags_run fk (P : world → event → Prop) w es w' : run fk P w es w' → d_tags (w_db w) ⊆ d_tags (w_db w').
Proof. induction 1; [done|]. etrans; [done|]. by eapply tags_step. Qed.
Fixpoint uniq (N : list string) (p : prog) : Prop :=
  match p with
  | Ret _ | Query _ => True
  | DelLinks _ p | DelSock _ p | InsSock _ _ p | InsLink _ _ p => uniq N p
  | SelTags f => ∀ cur, cur.*2 = N → uniq N (f cur)
  | InsTag n f => n ∉ N ∧ ∀ i, uniq (N ++ [n]) (f i)
  end.
Lemma uniq_each k : (∀ N ids, uniq N (k ids)) → ∀ tags N m ids, (∀ n, n ∈ N → is_Some (m !! n)) → uniq N (add_each m tags ids k).
Proof.
  intros Hk tags. induction tags as [|n tags IH]; intros N m ids Hm; simpl; [apply Hk|]. destruct (m !! n) as [i|] eqn:E; [by apply IH|].
  split; [intros Hn; destruct (Hm n Hn); congruence|]. intros i. apply IH. intros n' Hn'. apply elem_of_app in Hn' as [H|H].
  - destruct (decide (n = n')) as [->|]; [by rewrite lookup_insert|rewrite lookup_insert_ne by done; auto].
  - apply elem_of_list_singleton in H as ->. by rewrite lookup_insert.
Qed.
Lemma uniq_program N o : uniq N (program o).
Proof.
  assert (∀ k tags, (∀ N ids, uniq N (k ids)) → uniq N (add_tags tags k)) as Ha.
  { intros k tags Hk. simpl. intros cur <-. apply uniq_each; [done|]. intros n Hn. by apply full_lookup_map. }
  assert (∀ s N ids, uniq N (link_all s ids)) as Hl by (intros s N' ids; induction ids; done).
  destruct o; simpl; try done; unfold add_sock, delete_sock; repeat case_decide; try done; simpl; try (by apply Ha; try done; apply Hl).
Qed.
Record uq (w : world) : Prop := {
  u_names : NoDup (d_tags (w_db w)).*2;
  u_run t o p : w_calls w !! t = Some (o, Running p) → adds o ≠ [] → uniq (d_tags (w_db w)).*2 p;
  u_one t o p t' o' p' : w_calls w !! t = Some (o, Running p) → adds o ≠ [] → w_calls w !! t' = Some (o', Running p') → adds o' ≠ [] → t' = t }.
Lemma uq_calls w calls : uq w → (∀ t o p, calls !! t = Some (o, Running p) → w_calls w !! t = Some (o, Running p)) → uq (World (w_db w) calls).
Proof. intros Hu H. split; simpl; [apply (u_names _ Hu)|intros; eapply (u_run _ Hu); eauto|intros; eapply (u_one _ Hu); eauto]. Qed.
Lemma uniq_next fk d d' p : write fk p d = Some d' → NoDup (d_tags d).*2 → uniq (d_tags d).*2 p → NoDup (d_tags d').*2 ∧ uniq (d_tags d').*2 (next p d).
Proof.
  intros H Hn Hu. destruct p as [r|s' q|s' q|s' info' q|g|n g|s' i q|q]; simpl in H; repeat case_match; simplify_eq; simpl in *; auto.
  destruct Hu as [Hni Hu]. rewrite fmap_app. simpl. split; [|apply Hu]. apply NoDup_app. split; [done|]. split; [|apply NoDup_singleton].
  intros x Hx Hx'. apply elem_of_list_singleton in Hx' as ->. done.
Qed.
Lemma uq_step fk e w w' : step fk e w = Some w' → one_adder w e → inv w → uq w → uq w'.
Proof.
  intros Hs Ho Hi Hu. destruct e as [o|t f|t]; simpl in Hs.
  - simplify_eq. split; simpl; [apply (u_names _ Hu)| |].
    + intros t o' p Ht Ha. apply lookup_app_Some in Ht as [Ht|[_ Ht]]; [by eapply (u_run _ Hu)|].
      apply list_lookup_singleton_Some in Ht as [_ Ht]. injection Ht as <- Ht. apply settle_run in Ht as [<- _]. apply uniq_program.
    + intros t o1 p t' o2 p' H1 Ha1 H2 Ha2. apply lookup_app_Some in H1 as [H1|[Hl1 H1]], H2 as [H2|[Hl2 H2]]; [by eapply (u_one _ Hu)| | |].
      * apply list_lookup_singleton_Some in H2 as [_ H2]. simplify_eq. by destruct (Ho Ha2 _ _ _ H1 Ha1 p).
      * apply list_lookup_singleton_Some in H1 as [_ H1]. simplify_eq. by destruct (Ho Ha1 _ _ _ H2 Ha2 p').
      * apply list_lookup_singleton_Some in H1 as [H1 _]. apply list_lookup_singleton_Some in H2 as [H2 _]. lia.
  - destruct (w_calls w !! t) as [[o [p| |]]|] eqn:Ht; try done. destruct (i_run _ Hi _ _ _ Ht) as [Hst Hrun].
    destruct (if done_by f then write fk p (w_db w) else None) as [d|] eqn:Hw; simplify_eq.
    + destruct (done_by f); [|done]. destruct (decide (adds o = [])) as [Ha|Ha].
      * assert (d_tags d = d_tags (w_db w)) as Hsame.
        { pose proof (stage_fact _ _ _ Hst) as Hf. destruct p; simpl in Hw, Hf; repeat case_match; simplify_eq; try done. rewrite Ha in Hf. by apply elem_of_nil in Hf. }
        split; simpl; rewrite ?Hsame; [apply (u_names _ Hu)| |].
        -- intros t' o' p' H Ha'. apply list_lookup_insert_Some in H as [(->&H&_)|[_ H]]; [simplify_eq; by destruct Ha'|by eapply (u_run _ Hu)].
        -- intros t1 o1 p1 t2 o2 p2 H1 Ha1 H2 Ha2.
           apply list_lookup_insert_Some in H1 as [(->&H1&_)|[_ H1]]; [simplify_eq; by destruct Ha1|].
           apply list_lookup_insert_Some in H2 as [(->&H2&_)|[_ H2]]; [simplify_eq; by destruct Ha2|]. by eapply (u_one _ Hu).
      * destruct (uniq_next _ _ _ _ Hw (u_names _ Hu) (u_run _ Hu _ _ _ Ht Ha)) as [Hn' Hu']. split; simpl; [done| |].
        -- intros t' o' p' H Ha'. apply list_lookup_insert_Some in H as [(->&H&_)|[Hne H]].
           ++ injection H as -> H. destruct (fine f); [|done]. apply settle_run in H as [<- _]. done.
           ++ by destruct (Hne (eq_sym (u_one _ Hu _ _ _ _ _ _ Ht Ha H Ha'))).
        -- intros t1 o1 p1 t2 o2 p2 H1 Ha1 H2 Ha2.
           assert (∀ t1 o1 p1, <[t:=(o, if fine f then settle (next p (w_db w)) else Done Failed)]> (w_calls w) !! t1 = Some (o1, Running p1) → adds o1 ≠ [] → t1 = t) as Hx.
           { intros t' o' p' H Ha'. apply list_lookup_insert_Some in H as [(->&H&_)|[Hne H]]; [done|]. by eapply (u_one _ Hu). }
           by rewrite (Hx _ _ _ H1 Ha1), (Hx _ _ _ H2 Ha2).
    + apply uq_calls; [done|]. intros t' o' p' Ht'. apply list_lookup_insert_Some in Ht' as [(->&H&_)|[_ Ht']]; [done|done].
  - destruct (w_calls w !! t) as [[o [p| |]]|] eqn:Ht; simplify_eq. apply uq_calls; [done|].
    intros t' o' p' Ht'. apply list_lookup_insert_Some in Ht' as [(->&H&_)|[_ Ht']]; [done|done].
Qed.
Lemma uq_run fk es w : run fk one_adder started es w → uq w.
Proof.
  intros Hr. remember started as w0 eqn:E0. induction Hr as [w|w es w1 e w2 Hr IH HP Hs].
  - subst. split; simpl; [apply NoDup_nil_2| |]; intros *; intros H; by rewrite lookup_nil in H.
  - specialize (IH E0). subst. eapply uq_step; eauto. eapply inv_run; [exact Hr|apply inv_started].
Qed.
